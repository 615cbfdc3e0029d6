(** The drivers: main.go, the rest of experiments/finaltests.go and experiments/integers.go, and the ManualBench
    functions of accumulator/manualbench.go. Timing and printing are left out; values that a driver prints or
    throws away are returned. Random draws and TrustedSetup() are arguments, the latter so that small setups can
    be run; multiexp.NewPrecomputeTable is not modelled. *)
From Coq Require Import ZArith Bool String List.
From Verif Require Import GoBig AccModel HashModel FSModel ForkJoin ParModel ParIterModel AccParModel CircuitModel PokeModel SquaresModel RangeModel
  KeysModel ExperimentModel.
Import ListNotations.
Open Scope Z_scope.

Section Drivers.
Variable sha : string -> string.
Variable is_prime : Z -> bool.
Variable poseidon : list Z -> Z.
Variable fuel : nat.
Notation GenRep set := (GenRepresentatives sha is_prime poseidon fuel set DIHashFromPoseidon).

(** ** accumulator/manualbench.go:10-70 *)
Definition ManualBench (setup : Setup) (n : Z) : outcome (Z * list Z) :=
  do set <- GenBenchSet n; AccAndProve sha is_prime poseidon fuel set DIHashFromPoseidon setup.
Definition ManualBenchZKAcc (setup : Setup) (r n : Z) : outcome (Z * list Z) :=
  do set <- GenBenchSet n; ZKAccumulate sha is_prime poseidon fuel r set DIHashFromPoseidon setup.
Definition ManualBenchIter (setup : Setup) (n : Z) : outcome (Z * list Z) :=
  do set <- GenBenchSet n; AccAndProveIter sha is_prime poseidon fuel set DIHashFromPoseidon setup.
Definition ManualBenchParallel (setup : Setup) (cpus : nat) (n : Z) : outcome (pm_task * (list Z -> outcome (Z * list Z))) :=
  do set <- GenBenchSet n; AccAndProveParallel sha is_prime poseidon cpus fuel set DIHashFromPoseidon setup.
Definition ManualBenchIterParallel (setup : Setup) (cpus : nat) (n : Z) : outcome (call * (list (option Z) -> outcome (Z * list (option Z)))) :=
  do set <- GenBenchSet n; AccAndProveIterParallel sha is_prime poseidon cpus fuel set DIHashFromPoseidon setup.

(** ** finaltests.go:24-40 TestMembershipVerify: the accumulator, the values computed in the loop, the printed size *)
Definition TestMembershipVerify (setup : Setup) : outcome (Z * list Z * Z) :=
  do set <- GenBenchSet 10;
  do rep <- GenRep set;
  do (acc, proofs) <- AccAndProve sha is_prime poseidon fuel set DIHashFromPoseidon setup;
  do checks <- map_outcome (fun _ => do w <- go_index proofs 0; do x <- go_index rep 0; Ret (AccumulateNew w x (sN setup))) (repeat tt 100);
  do w <- go_index proofs 0;
  Ret (acc, checks, bit_len w).

(** ** finaltests.go:43-97 TestBasicZKrsa *)
(** lines 66-74: draw until coprime with N. The list holds the draws; it running out is not a result *)
Fixpoint draw_coprime (N : Z) (draws : list Z) : outcome Z :=
  match draws with
  | [] => OutOfFuel
  | h :: rest => if Z.gcd h N =? 1 then Ret h else draw_coprime N rest
  end.
Record basic_coins := { bc_r : Z; bc_prime : Z; bc_h : list Z; bc_aop : aop_coins; bc_junk : Z; bc_k : Z; bc_rhox : Z; bc_rhok : Z }.
Definition TestBasicZKrsa_size (TS : Z -> outcome Int3) (setup : Setup) (setSize : Z) (c : basic_coins) : outcome Z :=
  do set <- GenBenchSet setSize;
  do rep <- GenRep set;
  let randomizedBase := AccumulateNew (sG setup) (bc_r c) (sN setup) in
  do exp <- SetProductRecursiveFast rep;
  let acc := AccumulateNew randomizedBase exp (sN setup) in
  do h <- draw_coprime (sN setup) (bc_h c);                           (* h is not used *)
  let pp := {| ppN := sN setup; ppG := sG setup; ppH := sH setup |} in
  do (C, aop) <- AoP_Prove sha TS pp (bc_prime c) 100 (bc_aop c);
  do ok <- fst (AoP_Verify sha (NewZKAoPVerifier pp C) aop (bc_junk c));
  if negb ok then Panic else
  let C := exp_recv 0 (sG setup) 666 (sN setup) in
  do pokeproof <- ZKPoKEProve sha is_prime fuel pp (ppG pp) 666 C (bc_k c) (bc_rhox c) (bc_rhok c);
  match pokeproof with
  | None => Panic
  | Some pf =>
      do flag <- ZKPoKEVerify sha is_prime fuel pp (ppG pp) C (Some pf);
      if negb flag then Panic else Ret acc
  end.
Definition TestBasicZKrsa (TS : Z -> outcome Int3) (setup : Setup) (c : basic_coins) : outcome Z :=
  TestBasicZKrsa_size TS setup 65536 c.

(** ** Membership precomputation *)
(** finaltests.go:180-208. The goroutines started, and what is done with their result: all proofs, and the bit
    length of the first *)
Definition TestRSAMembershipPreComputeDIParallel (setup : Setup) (r1 setSize limit : Z) : outcome (pm_task * (list Z -> outcome (list Z * Z))) :=
  do set <- GenBenchSet setSize;
  do rep <- GenRep set;
  do rep <- go_slice rep 0 (Z.to_nat setSize);
  Ret (PMRandomizer (sG setup) r1 rep limit, fun proofs => do w <- go_index proofs 0; Ret (proofs, bit_len w)).
(** finaltests.go:106-134 *)
Definition TestRSAMembershipPreCompute (setup : Setup) (r1 setSize : Z) : outcome (pm_task * (list Z -> outcome (list Z * Z))) :=
  do set <- GenBenchSet setSize;
  do rep <- GenRep set;
  Ret (PMRandomizer (sG setup) r1 rep 0, fun proofs => do w <- go_index proofs 0; Ret (proofs, bit_len w)).
(** finaltests.go:256-264 *)
Definition preComputeDISingleThread (setup : Setup) (r1 setSize : Z) : outcome (list Z) :=
  do set <- GenBenchSet setSize;
  do rep <- GenRep set;
  ProveMembershipSingleThreadWithRandomizer (sG setup) r1 (sN setup) rep.
(** finaltests.go:267-283; rs: the randomizers. Go's integer division truncates and panics on zero *)
Definition TestDifferentGroupingSize (setup : Setup) (rs : nat -> Z) (setSize : Z) : outcome (list (list Z)) :=
  if setSize =? 0 then Panic
  else let repeatNum := Z.quot 262144 setSize in
    map_outcome (fun i => preComputeDISingleThread setup (rs i) setSize) (seq 0 (Z.to_nat repeatNum)).
(** finaltests.go:286-292 TestDifferentGroupSize: the sizes *)
Definition group_sizes : list Z := [1024; 4096; 16384; 65536; 262144].

(** ** integers.go *)
(** 12-23, for any size instead of 10000 *)
Definition TestFirstLayerPercentage_size (setup : Setup) (setSize : Z) : outcome pm_task :=
  do set <- GenBenchSet setSize; do rep <- GenRep set; Ret (PMParallel (sG setup) rep 2).
(** 26-45; here and below the size is a constant of the source *)
Definition TestMembership_size (setup : Setup) (setSize : Z) : outcome Z :=
  do set <- GenBenchSet setSize; do rep <- GenRep set; do prod <- SetProductRecursiveFast rep; Ret (AccumulateNew (sG setup) prod (sN setup)).
(** 48-115: the printed lengths of TestProduct (the first is that of a zero never overwritten), TestProduct2 and
    TestProduct3 *)
Definition TestProduct_size (setSize : Z) : outcome (Z * Z) :=
  do set <- GenBenchSet setSize; let first := bit_len 0 in do rep <- GenRep set; do prod <- SetProductRecursive rep; Ret (first, bit_len prod).
Definition TestProduct2_size (setSize : Z) : outcome (Z * Z) :=
  do set <- GenBenchSet setSize; do rep <- GenRep set; do prod <- SetProductRecursive rep;
  do temps <- map_outcome (fun _ => do x <- go_index rep 0; go_div prod x) (repeat tt 100);
  Ret (bit_len prod, bit_len prod).
Definition TestProduct3_size (setSize : Z) : outcome (Z * Z) :=
  do set <- GenBenchSet setSize; do rep <- GenRep set; do p1 <- SetProductRecursiveFast rep; do p2 <- SetProductRecursive rep;
  Ret (bit_len p1, bit_len p2).

(** ** main.go *)
Inductive action :=
| APoKE | AMultiSwap (n : Z) | AContract (n : Z) | AContract2 (n : Z) | AVerify
| ANotus (n k : Z) | ANotusParallel (n k : Z) | APreCompute (n : Z) | APreComputeParallel (n limit : Z) | AMerkleSwap (n : Z).
Definition twoTo14 : Z := 16384.  Definition twoTo15 : Z := 32768.  Definition twoTo16 : Z := 65536.
Definition twoTo17 : Z := 131072. Definition twoTo18 : Z := 262144. Definition twoTo19 : Z := 524288.
(** finaltests.go:764-771 *)
Definition different_sizes : list action := map AMultiSwap [256; 512; 1024; 2048; 4096; 8192].
(** finaltests.go:248-254 *)
Definition different_membership : list action := map APreCompute [1024; 4096; 16384; 65536; 262144].
(** main.go:22-38; the rest of the function times the copying of constants *)
Definition testMembershipproof : list action := [AVerify].
(** main.go:40-49 *)
Definition testbasicprocess : list action := [APoKE; AMultiSwap 10; AContract 10; AContract2 10].
(** main.go:51-59 *)
Definition singleCoreComponentProfiler (updateRates : Z) : list action :=
  map (fun n => ANotus (u32 n) (u32 (Z.quot n updateRates))) [twoTo14; twoTo15; twoTo16].
(** main.go:61-87 *)
Definition testNotusParallel (updateRates : Z) : list action :=
  let notus n := ANotusParallel (u32 n) (u32 (Z.quot n updateRates)) in
  different_sizes ++ [notus twoTo15; APreComputeParallel 32768 5; APreComputeParallel 65536 5; notus twoTo16; notus twoTo17; notus twoTo18; notus twoTo19].
(** main.go:89-185; [None]: what was entered is not an integer *)
Definition menu (input : option Z) : list action :=
  match input with
  | None => []
  | Some number =>
      let updateRates := 64 in
      if number =? 1 then testbasicprocess
      else if number =? 2 then testMembershipproof
      else if number =? 3 then singleCoreComponentProfiler updateRates
      else if number =? 4 then different_membership
      else if number =? 5 then testNotusParallel updateRates
      else if number =? 6 then [AMerkleSwap 1024]
      else if number =? 9 then
        testbasicprocess ++ testMembershipproof ++ singleCoreComponentProfiler updateRates ++
        different_membership ++ testNotusParallel updateRates ++ [AMerkleSwap 1024]
      else []
  end.

(** ** Running the actions on the directory of key files *)
Section Run.
Variables pkey vkey proof : Type.
Variable g_setup : ccs -> nat -> pkey * vkey.
Variable g_proof : pkey -> ccs -> assignment -> nat -> proof.
Variable g_verify : proof -> vkey -> list Z -> bool.
Variable sat : ccs -> assignment -> bool.
Notation files := (KeysModel.files pkey vkey).
(** the goroutine computations: one of their possible results *)
Variable sp : list Z -> outcome Z.                              (* SetProductParallel(set, 4) *)
Variable pm : Z -> Z -> Z -> list Z -> Z -> outcome (list Z).   (* ProveMembershipParallelWithTableWithRandomizer(G, r, N, set, limit) *)
Variable setup : Setup.
(** what one action draws: randomness of setups and of a proof, exponents *)
Record coins := { c_rs : nat; c_r2 : nat; c_rp : nat; c_mid : Z; c_ran : Z }.

(** the parts of TestNotusMultiSwap and TestNotusParallel before and after the accumulator (473-482, 599-613,
    618-627, 746-760): those of TestMultiSwap, around the body *)
Definition notus_driver (body : outcome notus) (fs : files) (k : Z) (c : coins) : outcome (files * bool) :=
  do fs <- (if negb (isCircuitExist pkey vkey fs MultiSwap k) then SetupZkMultiswap pkey vkey g_setup fs MultiSwap k (c_rs c) else Ret fs);
  do _ <- body;
  do testSet <- GenTestSet poseidon sha is_prime fuel (Z.to_nat k) setup (c_mid c);
  do p <- Prove pkey vkey proof g_proof sat fs testSet (c_rp c);
  match p with
  | None => Panic
  | Some p => do flag <- Verify pkey vkey proof g_verify fs p k (PublicPart testSet); Ret (fs, flag)
  end.
(** the goroutines of a driver, run by pm *)
Definition run_pm (t : outcome (pm_task * (list Z -> outcome (list Z * Z)))) : outcome (list Z * Z) :=
  do (t, k) <- t;
  match t with
  | PMRandomizer G r set limit => do proofs <- pm G r (sN setup) set limit; k proofs
  | _ => Panic
  end.

(** the directory afterwards, and the verdicts printed ("Verification passed", "Verification failed") *)
Definition run_action (fs : files) (a : action) (c : coins) : outcome (files * list bool) :=
  match a with
  | APoKE => do _ <- TestPoKE_round sha is_prime poseidon fuel setup 10; do _ <- TestPoKE_round sha is_prime poseidon fuel setup 11; Ret (fs, [])
  | AMultiSwap n =>
      do (fs, b) <- TestMultiSwap pkey vkey proof g_setup g_proof g_verify sat poseidon sha is_prime fuel fs n setup (c_mid c) (c_rs c) (c_rp c);
      Ret (fs, [b])
  | AContract n => do fs <- OutputSmartContract pkey vkey g_setup fs n (c_rs c); Ret (fs, [])
  | AContract2 n =>
      do (fs, o) <- OutputSmartContract2 pkey vkey proof g_setup g_proof g_verify sat poseidon sha is_prime fuel fs n setup (c_mid c) (c_rs c) (c_r2 c) (c_rp c);
      Ret (fs, [match o with Some _ => true | None => false end])
  | AVerify => do _ <- TestMembershipVerify setup; Ret (fs, [])
  | ANotus n k => do (fs, b) <- notus_driver (TestNotusMultiSwap sha is_prime poseidon fuel setup n k) fs k c; Ret (fs, [b])
  | ANotusParallel n k =>
      do (fs, b) <- notus_driver (TestNotusParallel sha is_prime poseidon sp (fun G r N set => pm G r N set 5) fuel setup n k) fs k c; Ret (fs, [b])
  | APreCompute n => do _ <- run_pm (TestRSAMembershipPreCompute setup (c_ran c) n); Ret (fs, [])
  | APreComputeParallel n limit => do _ <- run_pm (TestRSAMembershipPreComputeDIParallel setup (c_ran c) n limit); Ret (fs, [])
  | AMerkleSwap n =>
      do (fs, b) <- TestMerkleMultiSwap pkey vkey proof g_setup g_proof g_verify sat poseidon fs n (c_rs c) (c_rp c); Ret (fs, [b])
  end.
(** a sequence of actions; the i-th draws [coin i] *)
Fixpoint run_actions (fs : files) (l : list action) (coin : nat -> coins) (i : nat) : outcome (files * list bool) :=
  match l with
  | [] => Ret (fs, [])
  | a :: l =>
      do (fs, v) <- run_action fs a (coin i);
      do (fs, vs) <- run_actions fs l coin (S i);
      Ret (fs, v ++ vs)
  end.
(** the program started several times in the same directory *)
Definition sessions (fs : files) (inputs : list (option Z)) (coin : nat -> coins) : outcome (files * list bool) :=
  run_actions fs (List.concat (map menu inputs)) coin 0.
End Run.
End Drivers.
