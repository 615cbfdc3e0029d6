# Formal model of notus-project/rsa_accumulator

Everything lives in `rocq/theories` (logical name `Verif`), Coq 8.16.1, standard library only.

## Approach

* Models (`*Model.v`) are total Gallina functions, one per Go function, each with
  a comment giving file and lines in `/repo`. Panics, endless loops and nil results are explicit
  values (`outcome`: `Ret v`, `Panic`, `OutOfFuel`), never silently defaulted.
* `Spec.v` holds the small vocabulary in which properties are stated: products, witnesses,
  sums of squares. It does not import any model.
* Goroutine code is a state machine `step : state -> choice -> option state`; a schedule is a list of
  choices; theorems quantify over all schedules (safety by invariant, progress by
  case analysis, termination by a decreasing measure).
* External code is an argument of the model (SHA-256, Poseidon, ProbablyPrime, randomness,
  Gaussian gcd, CPU count). Whatever is assumed about it appears as a premise of the theorem.
* `Properties*.v` contain the theorems, a concrete instance of the hypotheses beside each (`..._case`),
  and `Print Assumptions`.
* A property the code violates gets a `..._refuted` theorem with a witness, and a `..._partial`
  theorem with the strongest restriction that holds.

## Per property plan

| id | modelled | proof |
|----|----------|-------|
| C01 | SetProduct, SetProduct2, SetProductRecursive, SetProductRecursiveFast | induction on length |
| C02 | SetProductParallel, setProductParallelWithChan as fork-join goroutine trees | generic fork-join theorem: all schedules have the same length and result |
| C03,C04 | ProveMembership, handleSmallSet, AccumulateNew | strong induction on length |
| C05,C06 | ProveMembershipIter at the level of memory cells and linked nodes | loop invariant over the node chain, heap frame |
| C07,C08 | ProveMembershipParallel(WithTable), proveMembershipWithChan | fork-join theorem |
| C09,C10 | ...WithRandomizer variants | as C03; C10 is violated for limit>0: refuted, exact result proved |
| C11,C12 | ProveMembershipIterParallel with channels as state machine, calNumWorkers | invariant, measure |
| C13-C16 | AccAndProve*, ZKAccumulate | from C03-C11 |
| C17,C18 | DIHashPoseidon, PoseidonAndDIHash, ElementFromString, genRep* | arithmetic; decimal parser |
| C19,C20 | HashToPrime, SHA256ToInt, UniversalHashToInt | induction on fuel; arithmetic |
| C21,C22 | SimpleExp, CommonBits, GCB on 64-bit words | refuted in general; exact formulas proved |
| C23,C24 | GenBenchSet, TrustedSetup constants | decimal injectivity; computation by the kernel |
| C25-C27 | Transcript | induction on histories; C27 refuted, boundary of C26 refuted |
| C28-C30 | GenPreTable, ComputeFromTable(Parallel) | loop invariants; permutation invariance |
| C31-C33 | NewTable, Compute, routineCompute as state machine | invariant, measure; C32, C33 refuted; `PropertiesExact.v` gives the exact conditions (hang, crash, value) for every exponent |
| C34-C39 | PoKE*, PoE, ZKPoKE | algebra of units mod N; C37, C38 refuted by the order-2 element |
| C40 | NewInt3, NewInt4 | case analysis |
| C41,C42 | ThreeSquares as state machine | Gaussian integer norm argument; C42 refuted three ways |
| C43-C49 | zkaop.go, range_proof.go | algebra of units; soundness and crash-freedom refuted; `PropertiesAnswers.v` says exactly which proofs crash the verifiers |
| C50 | the shared pool as a heap with a free list | refuted by an interleaving |
| C51-C58 | zkmultiswap | field arithmetic mod the BN254 order; C53, C54, C55, C56, C58 refuted in general form |
| C59,C60 | merkleswap, file names | induction; decimal injectivity |
| C61,C62 | safe prime search | refuted / arithmetic |
| C63 | contract input checks | case analysis |
| C64 | range checks of the identifiers in the MultiSwap circuit | refuted for the last identifier (its check is commented out); the other ones proved |
| C65 | TrustedSetupForQRN, the safe prime search | Euler's criterion from Fermat's theorem (`Fermat.v`) |
| C66,C67 | the Solidity verifier (`SolModel.v`) | computation on the curve constants; the control flow of verifyProof over abstract group operations |
| C68-C70 | accumulator and witnesses as residues | a false witness yields a root of the accumulator; Shamir's trick; counting exponents (`SecurityProofs.v`) |
| C71 | PoKEStarVerify | refuted: no range check of the remainder |
| C72-C76 | `/repo/experiments` as functions of set size, setup, hash and coins | symbolic execution; C73, C74, C76 refuted by runs with small numbers |
| C77 | strings hashed by every proof | injectivity of concatenation with fixed lengths; refuted without |
| C78 | crypto/rand.Int on a byte source and every coin drawn with it | counting over all byte strings |
| C79,C80 | responses as functions of the coins | counting: shifting an interval, periodic sums; exact distances (`Orders.v`: Proth primes, order of 2 modulo 3^m); `PropertiesMask.v`: the t parts and the last response of both proofs |
| C81,C82 | ThreeSquares with look at the context and read of the argument as separate steps (`SquaresRace.v`) | simulation by the machine of C41; quadratic non-residues make a goroutine spin |
| C83-C87 | key files and Groth16 wrappers over histories of setups, runs and exports (`KeysModel.v`) | invariant over histories; Groth16 is an argument with completeness and soundness as premises |
| C88-C90 | provers and verifiers statement by statement over pointers, a shared pool and interference (`PoolLang.v`, `PoolPrograms.v`) | a reading without heap simulates the machine when a discipline holds (`PoolLangProofs.v`); weakest preconditions of the programs (`PoolWP.v`, `PoolReadings.v`) |
| C91 | TestBasicZKrsa for any set size, with the coins as an argument (`DriverModel.v`) | symbolic execution with the theorems on the parts; refuted on three CPUs by the table of C92's method for 401 |
| C92 | ThreeSquares on every number 4x+1 below 2^13 (`SmallSquares.v`) | a run can return iff some candidate has a root and is reached on that many CPUs; computation of the least number of CPUs for each value; refuted for twelve values |
| C93 | the drivers of finaltests.go, integers.go and manualbench.go for any size (`DriverModel.v`) | symbolic execution, fork-join trees of C13; refuted for a positive limit |
| C94 | the menu of main.go and everything it runs, on the directory of key files, over any sequence of sessions (`DriverModel.v`) | each action extends the history of C83-C87 by an event; induction over the actions |
| C95 | histories with losses of files (`PropertiesLost.v`) | which setup each file is of, as a fold over the history; keys of a size are never of two setups; refuted by losing a verifying key |
| C96 | the deployed bytecode on a machine (`EvmModel.v`, `EvmCode.v`), Keccak-256 for selectors (`Keccak.v`) | a symbolic executor proved sound (`EvmSym.v`, `EvmProofs.v`) is run on the bytecode; the resulting tree, without tests that call data of the right size always passes, is the tree of the source, which is proved to compute verifyProof |
| C97 | the contract's Go test and its binding (`ChainModel.v`): proof bytes, packed call, unpacked answer, the two assertions | the packed call is call data for C96; with C67's equation and a pairing that can be cancelled; the hypotheses are met by the integers modulo the order, where the bytecode is also run |
| C98 | the contract call (`ChainModel.v`) against the Groth16 equation on GenPublicWitness | refuted by a value plus the order; for reduced values by C97's lemmas and C58 |
| C99 | the tests of accumulator and precompute as lists of reported errors (`SuiteModel.v`) | C01, C02, C13, C22, C31, C32 instantiated at the sizes of the tests |
| C100 | TestSimpleExp | refuted by g = 1; C21 gives the draws that pass; the others counted with list_prod |
| C101 | transcript_test.go for every hash | C26, induction on the prime search; refuted for TestChallenge by a constant hash |
| C102 | zkmultiswap_test.go: TestPublicWitness, TestZkMultiSwap, the seven fail cases | circuit_meaning, C52, C53, C55; the range case refuted by a constant Poseidon |
| C103 | the directory gnark-tests/solidity: key files, contract, compiled contract, binding, the commands that change them and the test (`WorkspaceModel.v`) | invariant: which setup every file stems from; ideal Groth16 as in C83; a clone fails |
| C104 | circuit.go as in C51-C53; the two sums replaced, everything else kept | circuit_meaning and C53 give exactly the pairs with the same difference; C83 for Prove and Verify; refuted by the example circuit |
| C105 | chains of accepted swaps, newest first, each removing the leaf the one before inserted | induction on the chain; C52 for the epochs; a Poseidon collision is named, not excluded |
| C106 | a ledger of balances kept beside a sequence of accepted swaps | induction on the sequence with C53; one swap of the first user refutes |
| C107 | NewInt4, NewInt3, Int4.Mul with memory cells and nil pointers (`Int4Model.v`) | case analysis on the sorting network; induction on the entries counts occurrences; refuted by shared cells |
| C108 | Int4.Div with memory cells | as C107; Euclidean division undoes multiplication; refuted by a divisor that is an entry |
| C109 | Int4.String, GetPseudoRandomElement | decimal strings contain no comma or brace and are injective (StrFacts) |
| C110 | getPrime256, RandomSetupForUniversalHash | induction on the draws; C78 for A and B; refuted by the draw A = 0 |
| C111 | the fork-join functions of C02-C10 with the go statements of a run counted (`PropertiesGoroutines.v`) | an invariant counts the go statements still to come; induction on the limit bounds them; refuted for negative limits of SetProductParallel |
| C112 | the machines of C11, C30 and C31 run on after the call has returned | the invariants and measures of those properties, with two more invariants about the collector and the workers that have sent their result |
| C113 | the functions of C01-C10 once more, each returning the list of integer products and exponentiations it executed (`CostModel.v`); a run of the fork-join machine adds up the lists of its steps | erasure theorems give the original outcomes; induction over the recursion with a budget for squarings, exponentiations, products and bits; a budget invariant over the goroutine tree for the parallel functions; induction on k from below for n = 4^k |
| C114 | the bits of the integer products in the same record | refuted by n = 4^k elements equal to 2; the bound with the square of the logarithm is proved |
| C115 | the longest chain through the goroutine tree of C113, by recursion over its generations (`PropertiesSpan.v`) | induction over the generations with the share of one goroutine; the bits of the first goroutine from below |
| C116 | IterModel.v once more with the exponentiations recorded; the exponentiations of each step of the goroutines of ParIterModel.v (`IterCostModel.v`) | erasure theorem; every list node carries a budget of s·⌈log2 s⌉ for its s representatives, which a split pays for; the cells of the caller stay as they were, so the exponents are the representatives; the same budget as an invariant of the goroutines, with the splits initMembershipProofs still has to do |
| C117 | every benchmark of benchmark_test.go and BenchmarkAccumulate as a function of b.N and of the random draws, giving the results of the timed calls (`BenchModel.v`); the testing package as a loop that raises b.N; BenchmarkPrecompute is left out (Table.Compute is C31) | loop lemmas and the theorems on the functions called; witnesses for the five benchmarks that do not count and for a draw that fails; induction on the distance to the largest b.N |
| C118 | TestPreComputeTableSize with the arithmetic of an int, giving the four printed numbers (`TableSizeModel.v`); the table of the external multiexp package is specified, not modelled: the base raised to the powers of two | arithmetic; the entries are units, so each has a word; the first one is the base, which has more; a word count of the modulus bounds them all |
| C119 | GenerateG (the printed number and the warning) and PoseidonWith2Inputs (HashModel.v); the hash functions are arguments | induction on the chain of hashes; a product of units is a unit; the constant zero hash |
| C120 | the Pairing library's creation code and code on the machine of C96 with BYTE, ADDRESS and MSTORE8 (`LibraryModel.v`) | the creation code is run with the address as a variable; the stored code is run with any call data |
| C121 | SetProduct2, SetProductRecursive(Fast), AccumulateNew, handleSmallSet, ProveMembership, AccAndProve, ZKAccumulate with memory cells (`OwnModel.v`) | each call is followed next to its value in AccModel: it keeps the cells there were, and what it returns lies behind them; induction on the recursion depth |
| C122 | NewTable, GenPreTable, ComputeFromTable with memory cells (`KeepModel.v`) | the calls are followed next to TableModel as in C121; all rows lie behind the cells there were, so writes to older cells cannot reach them; Compute reads the modulus through the caller's pointer, which gives the counterexample |
| C123 | ProveMembershipIter, AccAndProveIter and the small case of ProveMembershipIterParallel on arrays of 64-bit words, with math/big's make, set, setWord, alias test and Exp (`WordModel.v`) | refuted by two runs; the run on words is followed next to the run on cells (IterModel), each store going to an array that did not exist before; what the exponentiation loop leaves in its receiver is an arbitrary function |
| C124 | PublicPart on the same memory | refuted by a run; the value read on the other side after any store |
| C125 | the checks of the tests as functions of what the tested function returned (`SuiteModel.v`: `iter_checks`, `acc_and_prove_checks`) | unfolding gives the exact set of accepted outputs; refuted by a list wrong at an unchecked position |
| C126 | proveMembershipIter, insertNewProofNodeWithChan and the helper goroutine with every read and write of iter, finishFlag, list nodes, numbers and slice elements as a step of its own, and other goroutines as an environment (`RaceModel.v`) | invariant (`RaceProofs.v`): the numbers being computed are pairwise distinct and apart from all that the other goroutine uses, and the helper works only while the caller is between sendChan and iterChan; the lists of accesses are proved to be all that a step changes and depends on; simulation by ParIterModel.v with a rank for the steps in between (`RaceSim.v`) |
| C127 | SetProductRecursiveFast, handleSmallSet, ProveMembership, ProveMembershipSingleThreadWithRandomizer, the recursive parallel provers, the collecting loops, the collecting goroutine, GenRepresentatives' slice and the experiments' two appended sets with Go's slices: arrays, offsets, lengths, capacities, append in place or into a new array of arbitrary capacity, every access recorded (`SliceModel.v`). Goroutines started together are run one after the other; their recorded accesses are compared and a conflict is recorded as a race. Free interleaving is the subject of C128 | simulation of the list models with a frame: writes only to arrays made since the call began, reads only of those and of the argument (`SliceProofs.v`). Examples show a clobbering append and a detected race |
| C128 | The recursive parallel provers, SetProductParallel and all they call, as programs whose single array accesses a scheduler interleaves; the starting goroutine runs on while those it started run; append and array initialisation go cell by cell; arrays are named in the order of the schedule (`InterleaveModel.v`). A channel is only the waiting for one value; a number is its value | a small separation logic: a goroutine owns the arrays it made, shares the argument read-only and hands its arrays over when it ends; ownership is kept by every step (`InterleaveProofs.v`), and every function satisfies it (`InterleaveFuns.v`); termination because a program is a well-founded tree |
| C129 | The same functions and AccumulateNew with the numbers in memory too: a *big.Int is an array of one cell, a slice cell holds its name, bigfft.Mul and multiexp (external) read their arguments and return new numbers, `ret.Set`, `ret.Exp` and `ret.Mul` write the receiver (`InterleaveNumModel.v`). The words of a number are the subject of C123 and C124 | the logic of C128: arguments are read-only for everybody, a goroutine starts with the ownership of its base and ends with that of a slice of different new numbers (`InterleaveNumFuns.v`) |
| C130 | Any number of `Transcript` values in one memory of string arrays, with struct copies (`ForkModel.v`, on the heap and append of `FSModel.v`); the challenge is a parameter. Nothing in /repo copies a Transcript today | invariant over the pairs of values that share an array: one of them is full or not used again (`PropertiesFork.v`); refuted without that condition |
| C131 | Table.Compute and routineCompute with the numbers in memory and every read and write of one as a step; the rest of the program may make numbers and change those, and change numbers of its own from before the call (`TabRaceModel.v`). The slices xBytes and t.table are not written by anybody and are lists | forward simulation into the machine of C31; the invariant says which goroutine owns which number (`TabRaceProofs.v`) |
| C132 | ComputeFromTableParallel and getAccumulate with the numbers in memory and every read and write of one as a step, from the `go` statements on; the rest of the program may make numbers and change those, and change numbers of its own from before the call (`PreRaceModel.v`). The mutex is left out: only the caller's goroutine takes it | forward simulation into the machine of C30; the invariant says which goroutine owns which number (`PreRaceProofs.v`) |
| C133 | any number of calls of ComputeFromTableParallel, each as in C132, in one memory; a call begins at any moment, and what it does before its `go` statements is one step (`PreManyModel.v`) | each call keeps the invariant of C132 with the numbers of all other calls as numbers of the rest of the program; a ghost function gives each number to one call (`PreManyProofs.v`) |
| C134 | PrintTable and fmt.Println on strings and integers, standard output as a string (`PrintModel.v`) | a decimal number has no space and no line break, so each line is cut at the first one; induction on the rows |
| C135 | Transcript.Print, likewise | refuted by two transcripts; the number of line breaks shows that a text of a transcript without any is of no other |
| C136 | any number of calls of Table.Compute, each as in C131, in one memory; a call begins at any moment, and making `res` and the `opt`s is one step (`TabManyModel.v`) | as C133: each call keeps the invariant of C131 with the numbers of all other calls as numbers of the rest of the program, those made before it began included (`TabManyProofs.v`) |

## Trusted base

* Coq's kernel, with `vm_compute` (used for concrete cases and for the constants of the setup and of the contract).
* `Print Assumptions` of every theorem named in MANIFEST.json prints "Closed under the global context": no
  axiom, not even one of the standard library. (A check of the loaded libraries also lists seven constants of
  `Coq.ssr.ssrunder`; they belong to a module that `Require` of standard files loads and no theorem uses them.)
* The reading of Go written down in the models:
  * `GoBig.v` (math/big): Exp, ModInverse, Div, Mod, DivMod, BitLen, Bytes, SetBytes, SetString, String; nil
    results of Exp and ModInverse and the panic on their use.
  * `WordModel.v`: which array a store of math/big 1.19 goes to (nat.make, nat.set, nat.setWord, the alias test and early
    returns of expNN, Int.Exp).
  * slices and indexing with panics; `int` as unbounded integers, except where the width matters (uint32 in the
    experiments, 64-bit words in mulexp.go).
  * goroutines, channels, select and contexts as machines with arbitrary schedules (`Sched.v`, `ForkJoin.v`).
  * Sqrt is the integer square root and panics on negative numbers (`SquaresModel.v`).
  * sync.Pool as a bag from which Get may also return a new number (`PoolModel.v`, `PoolLang.v`).
* In `ChainModel.v`: the layout of gnark's WriteRawTo (32 bytes per coordinate, Ar, Bs, Krs), go-ethereum's packing of
  static arguments (selector, words modulo 2^256) and its decoding of a bool. EstimateGas is not modelled.
* The reading of the Ethereum machine in `EvmModel.v`: the opcodes the compiled contract uses, stack limit, jump
  targets, memory, STATICCALL of addresses 6, 7 and 8. Gas is not counted (GAS reads an arbitrary number, no step
  runs out), the memory has no size limit. `Keccak.v` is checked on known digests.
* The premises of the theorems about external code, stated in each theorem.

## What is modelled

| source | modelled | file |
|---|---|---|
| accumulator/accumulator.go | all functions; timing in AccAndProve left out | AccModel, OwnModel (the same with memory cells), IterModel, WordModel (the iterative functions with words), CostModel and IterCostModel (the operations counted), HashModel (TrustedSetup) |
| accumulator/zkacc.go | all | AccModel, HashModel, RandModel |
| accumulator/common.go | products; the setup program (TrustedSetupForQRN and its helpers); GenerateG; RandomSetupForUniversalHash with getPrime256; GetPseudoRandomElement | AccModel, ParModel, CostModel (the operations counted), SetupModel, HashModel, RandModel, Int4Model |
| accumulator/concurrent.go | all | ParModel, ParIterModel, RaceModel (proveMembershipIter by single memory accesses), AccParModel, SliceModel (arrays and capacities), InterleaveModel and InterleaveNumModel (every schedule of the accesses of arrays, and of numbers), IterCostModel (the operations counted) |
| accumulator/hashes.go, genRep.go | all; SHA-256 and Poseidon are arguments | HashModel |
| accumulator/mulexp.go | all, on 64-bit words | ExpModel |
| accumulator/manualbench.go | all | HashModel, DriverModel |
| precompute | all | TableModel, PrintModel (PrintTable), KeepModel (table construction and ComputeFromTable with memory cells), TabRaceModel (Table.Compute by single accesses), PreRaceModel (ComputeFromTableParallel by single accesses), PreManyModel and TabManyModel (many calls of either at once) |
| fiat-shamir | all | FSModel, ForkModel, PrintModel (Print) |
| proof/poke.go, three_square.go, zkaop.go, range_proof.go, parameters.go, cache.go, compute.go | values: PokeModel, SquaresModel, RangeModel; coins: RandModel; pointers and pool: PoolModel, PoolPrograms (Prove and Verify of the two proofs); races: SquaresRace; NewInt3, NewInt4 and the methods of Int4 with memory cells: Int4Model. | as named |
| zkmultiswap (three files), merkleswap | constraints, assignment, test sets, key files, drivers | CircuitModel, KeysModel |
| the three copies of the contract (`*contract_g16.sol`) | constants, verifyProof | SolModel |
| experiments/finaltests.go | TestPoKE, PoKE, TestNotusMultiSwap, TestNotusParallel, sizes of the tables, the membership drivers, TestPreComputeTableSize. NewPrecomputeTable is external | ExperimentModel, DriverModel, TableSizeModel |
| experiments/integers.go | all | ExperimentModel, DriverModel |
| main.go | the menu and what each entry runs, on the directory of key files | DriverModel |
| zkmultiswap/gnark-tests/solidity/solidity_groth16.go | the bytecode deployed, of the verifier and of the library | EvmModel, EvmCode, LibraryModel |
| zkmultiswap/gnark-tests/solidity/solidity_groth16_test.go | TestVerifyProof from the proof bytes on; the binding's VerifyProof | ChainModel |
| zkmultiswap/gnark-tests/solidity/generate.go, contract/main.go, gnark-tests/Makefile | whole commands on whole files; solc and abigen as copies of the key they compile | WorkspaceModel |
| accumulator/*_test.go, precompute/precompute_test.go, fiat-shamir/transcript_test.go, zkmultiswap/zkmultiswap_test.go | the test functions; the benchmarks but BenchmarkPrecompute | SuiteModel, BenchModel |
| other tests, zkmultiswap/gnark-tests (other Go code) | not modelled | |

## What is not modelled

* Timing, printing (but for C134, C135 and where a row above says so), memory use, garbage collection.
* The bodies of external libraries: math/big word arithmetic, bigfft, multiexp (its functions are taken to compute
  powers), gnark (compilation, Groth16, the MulModP gadget), Poseidon, SHA-256, the Ethereum precompiles.
* The Go memory model below the level of whole numbers: a race is a read or write of a whole number at the wrong
  moment, never a torn one. Only `WordModel.v` (ProveMembershipIter, PublicPart) goes below that, to arrays of words.
* In `PoolLang.v` a panic ends the run; what a recovered panic leaves in the pool is not modelled.
* Probabilities: randomness is counted over coins; no computational assumption is formalised. Statements of
  the kind "or else a root is found" stand for reductions.

## Checking the theorems

`seeded/LOG.jsonl` records edits of the models (a wrong boundary, a swapped argument, a dropped update, ...) with the
claim each of them breaks and the theorems that stop holding. `theorems_tightened` names the theorems added or
strengthened because an edit went unnoticed.
