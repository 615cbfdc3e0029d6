(** The test functions of /repo: accumulator/*_test.go, precompute/precompute_test.go, fiat-shamir/transcript_test.go,
    zkmultiswap/zkmultiswap_test.go. A test is the list of the errors it reports with t.Errorf; a panic fails it, too.
    What a test draws at random is an argument. Calls of concurrent functions are split: the test up to the call, and the
    checks of the value returned. *)
From Coq Require Import ZArith Bool String List.
From Verif Require Import GoBig AccModel HashModel ParModel ParIterModel AccParModel ExpModel TableModel FSModel CircuitModel.
Import ListNotations.
Local Open Scope string_scope.
Local Open Scope list_scope.
Open Scope Z_scope.

Definition errors := list string.
(** if the condition is violated: t.Errorf(msg) *)
Definition expect (ok : bool) (msg : string) : errors := if ok then [] else [msg].
Definition passes (o : outcome errors) : Prop := o = Ret [].

(** ** accumulator_test.go *)
(** 11-28 *)
Definition TestSetup : errors :=
  expect (Z.gcd (sN TrustedSetup) (sG TrustedSetup) =? 1) "g and N not co-prime! We win the RSA-2048 challenge!" ++
  expect (bit_len Min1024 =? 1024) "Min1024 is not 1024 bits" ++
  expect (bit_len Min2048 =? 2048) "Min2048 is not 2048 bits".
(** 160-167: draws are the results of rand.Intn(100000000) *)
Definition rand_set (draws : list Z) : list string := map dec draws.

Section Hashes.
Variable sha : string -> string.
Variable is_prime : Z -> bool.
Variable poseidon : list Z -> Z.
Variable fuel : nat.
Notation GenRep := (GenRepresentatives sha is_prime poseidon fuel).

Definition inconsistent : string := "proofs generated are not consistent".
(** 36-50 (idx = 5, again = [1]), 56-68, 74-86: the checks on what AccAndProve returned *)
Definition acc_and_prove_checks (set : list string) (idx : nat) (again : list nat) (acc : Z) (proofs : list Z) : outcome errors :=
  let setup := TrustedSetup in
  let e1 := expect (List.length set =? List.length proofs)%nat "proofs have different size as the input set" in
  do rep <- GenRep set HashToPrimeFromSha256;
  let acc2 := accumulate_val (sG setup) (sN setup) rep in
  do p <- go_index proofs idx; do r <- go_index rep idx;
  let acc3 := AccumulateNew p r (sN setup) in
  do e2 <- map_outcome (fun i => do p <- go_index proofs i; do r <- go_index rep i; Ret (expect (acc =? AccumulateNew p r (sN setup)) inconsistent)) again;
  Ret (e1 ++ expect (acc =? acc3) inconsistent ++ expect (acc2 =? acc3) inconsistent ++ List.concat e2).
(** 34-50, 54-68, 72-86 *)
Definition acc_and_prove_round (set : list string) (idx : nat) (again : list nat) : outcome errors :=
  do (acc, proofs) <- AccAndProve sha is_prime poseidon fuel set HashToPrimeFromSha256 TrustedSetup;
  acc_and_prove_checks set idx again acc proofs.
(** 30-87; three sets are drawn *)
Definition TestAccAndProve (d1 d2 d3 : list Z) : outcome errors :=
  do e1 <- acc_and_prove_round (rand_set d1) 5 [1%nat];
  do e2 <- acc_and_prove_round (rand_set d2) 7 [];
  do e3 <- acc_and_prove_round (rand_set d3) 252 [];
  Ret (e1 ++ e2 ++ e3).

(** 89-94 *)
Definition genAccts (set : list string) (setup : Setup) (proofs : list (option Z)) (idx : nat) : outcome (Z * Z) :=
  do rep <- GenRep set HashToPrimeFromSha256;
  let acc1 := accumulate_val (sG setup) (sN setup) rep in
  do p <- go_index proofs idx; do p <- deref p; do r <- go_index rep idx;
  Ret (acc1, AccumulateNew p r (sN setup)).
(** 141-155 and concurrent_test.go:50-64: the first failed check returns *)
Definition iter_checks (set : list string) (idx wantProofLen : nat) (acc : Z) (proofs : list (option Z)) : outcome errors :=
  do (acc1, acc2) <- genAccts set TrustedSetup proofs idx;
  Ret (if negb (List.length proofs =? wantProofLen)%nat then ["got proof len"]
       else if negb (acc =? acc2) then [inconsistent] else if negb (acc1 =? acc2) then [inconsistent] else []).
(** 96-158 *)
Definition iter_case (set : list string) (idx wantProofLen : nat) : outcome errors :=
  do (acc, proofs) <- AccAndProveIter sha is_prime poseidon fuel set HashToPrimeFromSha256 TrustedSetup;
  iter_checks set idx wantProofLen acc (map Some proofs).
Definition TestAccAndProveIter (d1 d2 d3 : list Z) : outcome errors :=
  do e1 <- iter_case (rand_set d1) 5 16;
  do e2 <- iter_case (rand_set d2) 7 17;
  do e3 <- iter_case (rand_set d3) 253 254;
  Ret (e1 ++ e2 ++ e3).
(** ** concurrent_test.go:48-66 on a machine with the given number of CPUs: one case; the call and what follows its return *)
Definition iter_parallel_case (cpus : nat) (set : list string) (idx wantProofLen : nat) : outcome (call * (list (option Z) -> outcome errors)) :=
  do (c, k) <- AccAndProveIterParallel sha is_prime poseidon cpus fuel set HashToPrimeFromSha256 TrustedSetup;
  Ret (c, fun v => do (acc, proofs) <- k v; iter_checks set idx wantProofLen acc proofs).

(** ** common_test.go:7-25; v is the result of SetProductParallel(rep, 2) *)
Definition TestProduct : outcome (sp_task * (Z -> outcome errors)) :=
  do set <- GenBenchSet 1000;
  do rep <- GenRep set DIHashFromPoseidon;
  do prodRecursive <- SetProductRecursiveFast rep;
  Ret (SPTop rep 2, fun v =>
    Ret (expect (prodRecursive =? v) "two ways have different result" ++ expect (prodRecursive =? SetProduct2 rep) "two ways have different result")).

(** ** precompute/precompute_test.go:96-143: the goroutines of Compute with 4 routines, and the value wanted *)
Definition accumulate (setup : Setup) (reps : list Z) : Z := fold_left (fun acc v => exp_recv acc acc v (sN setup)) reps (sG setup).
Definition small_setup : Setup := MkSetup 1000003 2 0.   (* 70-75 *)
Definition small_reps : list Z := [21; 32; 15; 17].      (* 77-84 *)
Definition TestTable_Compute_small : outcome (Table * Z * Z) :=
  do t <- NewTable (sG small_setup) (sN small_setup) 32 (List.length small_reps) 1;
  Ret (t, 171360, accumulate small_setup small_reps).
Definition TestTable_Compute : outcome (Table * Z * Z) :=
  do set <- GenBenchSet 1000;
  do reps <- GenRep set DIHashFromPoseidon;
  do repProd <- SetProductRecursive reps;
  do t <- NewTable (sG TrustedSetup) (sN TrustedSetup) (Z.shiftl 1 2048 - 1) 1000 512;
  Ret (t, repProd, accumulate TrustedSetup reps).

(** ** fiat-shamir/transcript_test.go *)
Definition zero_transcript : Transcript := MkTranscript [] 0.  (* var trans Transcript *)
Definition bitLimit : Z := 240.                                (* transcript.go:21 *)
(** 9-13 *)
Definition TestConstants : errors := expect (bit_len min253 =? bitLimit) "Min253.BitLen != bitLimit".
Definition testStrings : list string := ["111"; "aaa"; "333"].
Notation challenge := (GetChallengeAndAppend sha is_prime fuel).
(** 15-43 *)
Definition TestTranscript : outcome errors :=
  let trans1 := InitTranscript testStrings Default in
  let trans2 := AppendSlice zero_transcript testStrings in
  let trans3 := Append (AppendSlice zero_transcript (firstn 2 testStrings)) "333" in
  do (challenge1, _) <- challenge trans1;
  do (challenge2, _) <- challenge trans2;
  do (challenge3, _) <- challenge trans3;
  Ret (expect (challenge1 =? challenge2) "Different ways to init transcript leads to different results" ++
       expect (challenge1 =? challenge3) "Different ways to init transcript leads to different results").
(** 45-64 *)
Definition TestChallenge : outcome errors :=
  do (challenge1, trans1) <- challenge (InitTranscript testStrings Default);
  do (challenge2, trans1) <- challenge trans1;
  do (challenge3, _) <- challenge (Append (InitTranscript testStrings Default) (dec challenge1));
  Ret (expect (negb (challenge1 =? challenge2)) "Updated transcript has old results" ++
       expect (challenge3 =? challenge2) "Different ways to update transcript leads to different results").
Definition length_checks (c : Z) : errors :=
  expect (c <? fr_modulus) "Challenge larger than fr.Modulus()" ++ expect (c <? min253) "Challenge larger than min253".
(** 66-92 (the errors in another order) *)
Definition TestPrimeChallengeLength : outcome errors :=
  do (challenge1, trans1) <- challenge (InitTranscript testStrings Max252);
  do (challenge2, _) <- challenge trans1;
  Ret (expect (is_prime challenge1) "Challenge not prime" ++ expect (is_prime challenge2) "Challenge not prime" ++
       length_checks challenge1 ++ length_checks challenge2).
(** 94-114: the function fuzzed *)
Definition FuzzChallenge (testInput : string) : outcome errors :=
  do (challenge1, _) <- challenge (InitTranscript [testInput] Default);
  do (challenge2, _) <- challenge (InitTranscript [testInput] Max252);
  Ret (expect (is_prime challenge1) "Challenge not prime" ++ expect (is_prime challenge2) "Challenge not prime" ++ length_checks challenge2).

(** ** zkmultiswap/zkmultiswap_test.go *)
Definition set_epoch (c : Circuit) (e : Z) : Circuit :=
  {| ChallengeL1 := ChallengeL1 c; ChallengeL2 := ChallengeL2 c; RemainderR1 := RemainderR1 c; RemainderR2 := RemainderR2 c; CurrentEpochNum := e;
     DeltaModL1 := DeltaModL1 c; DeltaModL2 := DeltaModL2 c; Randomizer1 := Randomizer1 c; Randomizer2 := Randomizer2 c; OriginalSum := OriginalSum c;
     UpdatedSum := UpdatedSum c; UserID := UserID c; OriginalBalances := OriginalBalances c; OriginalHashes := OriginalHashes c;
     OriginalUpdEpoch := OriginalUpdEpoch c; UpdatedBalances := UpdatedBalances c |}.
Definition vector_eqb (v w : list Z) : bool := if list_eq_dec Z.eq_dec v w then true else false.
(** 15-53 *)
Definition TestPublicWitness (midExp : Z) : outcome errors :=
  do testSet <- GenTestSet poseidon sha is_prime fuel 10 TrustedSetup midExp;
  do assignment <- AssignCircuit testSet;
  let publicWitness := fst (NewWitness assignment) in
  let publicWitness2 := public_vector (AssignCircuitHelper (PublicPart testSet)) in
  let e1 := expect (vector_eqb publicWitness publicWitness2) "public witness and public witness build from public info are not equal" in
  let publicWitness := fst (NewWitness (set_epoch assignment 666)) in
  Ret (e1 ++ expect (negb (vector_eqb publicWitness publicWitness2)) "public witness and public witness should not be equal").

Variable mulmod : Z -> Z -> Z -> Z -> Prop.
Definition set_first (l : list Z) (v : Z) : list Z := match l with [] => [] | _ :: r => v :: r end.
(** the wrong values written over an assignment *)
Inductive edit := UpdatedBalance0 (v : Z) | OriginalBalance0 (v : Z) | OSum (v : Z) | USum (v : Z) | R1 (v : Z) | R2 (v : Z).
Definition apply_edit (c : Circuit) (e : edit) : Circuit :=
  {| ChallengeL1 := ChallengeL1 c; ChallengeL2 := ChallengeL2 c;
     RemainderR1 := match e with R1 v => v | _ => RemainderR1 c end; RemainderR2 := match e with R2 v => v | _ => RemainderR2 c end;
     CurrentEpochNum := CurrentEpochNum c; DeltaModL1 := DeltaModL1 c; DeltaModL2 := DeltaModL2 c; Randomizer1 := Randomizer1 c; Randomizer2 := Randomizer2 c;
     OriginalSum := match e with OSum v => v | _ => OriginalSum c end; UpdatedSum := match e with USum v => v | _ => UpdatedSum c end;
     UserID := UserID c; OriginalBalances := match e with OriginalBalance0 v => set_first (OriginalBalances c) v | _ => OriginalBalances c end;
     OriginalHashes := OriginalHashes c; OriginalUpdEpoch := OriginalUpdEpoch c;
     UpdatedBalances := match e with UpdatedBalance0 v => set_first (UpdatedBalances c) v | _ => UpdatedBalances c end |}.
(** 68-107: the edits of each case, in order; the first four and the last two are meant to break the sums and the remainders,
    the fifth the range of the balances (97-100) *)
Definition fail_cases (c : Circuit) : list (list edit) :=
  [[UpdatedBalance0 5]; [OSum 10]; [USum 10]; [OriginalBalance0 10]; [OriginalBalance0 1000000000; UpdatedBalance0 1000000000]; [R1 (ChallengeL1 c)]; [R2 (ChallengeL2 c)]].
Definition fail_case (c : Circuit) (es : list edit) : Circuit := field_circuit (fold_left apply_edit es c).
(** SolvingFailed for every case *)
Definition TestZkMultiSwapFailCases (midExp : Z) : outcome (list Prop) :=
  do testSet <- GenTestSet poseidon sha is_prime fuel 10 TrustedSetup midExp;
  do c <- AssignCircuit testSet;
  Ret (map (fun es => ~ satisfied poseidon mulmod (fail_case c es)) (fail_cases c)).
(** 55-66: SolvingSucceeded *)
Definition TestZkMultiSwap (midExp : Z) : outcome Prop :=
  do testSet <- GenTestSet poseidon sha is_prime fuel 512 TrustedSetup midExp;
  do c <- AssignCircuit testSet;
  Ret (satisfied poseidon mulmod (field_circuit c)).
End Hashes.

(** ** mulexp_test.go *)
(** 9-26 *)
Definition TestCommonBits : errors :=
  expect (CommonBits 1024 1025 =? 1024) "Wrong result for CommonBits" ++ expect (CommonBits 7 1025 =? 1) "Wrong result for CommonBits".
(** 28-56: a and b drawn below 1000000; Add works on the words of its operands, normalised or not *)
Definition TestGCB (a b : Z) : errors :=
  let '(result, aCopy, bCopy) := GCB a b in
  expect (words_val aCopy + words_val bCopy + result + result =? a + b) "Wrong result for GCB".
(** 58-82: g, x and N drawn below 1000000; Exp on a new receiver *)
Definition TestSimpleExp (g x N : Z) : outcome errors :=
  let result2 := exp_recv 0 g x N in
  do result <- SimpleExp g x N;
  Ret (expect (result =? result2) "Wrong result for SimpleExp").
