{"id": "C01", "title": "Set products equal the mathematical product", "statement": "SetProduct, SetProduct2, SetProductRecursive and SetProductRecursiveFast all return exactly the product of the integers in the input slice (1 for an empty slice), and never panic.", "quantifier": "every slice of integers, of every length", "why_tests_cant": "The recursive variants split at len/2 with a special case at length <= 2; only an induction on length covers every split shape.", "anchors": ["accumulator/common.go:SetProduct", "accumulator/common.go:SetProduct2", "accumulator/common.go:SetProductRecursive", "accumulator/common.go:SetProductRecursiveFast"]}
{"id": "C02", "title": "Parallel set product is schedule independent", "statement": "SetProductParallel returns exactly the product of the input slice for every value of limit (including negative ones); whatever order the goroutines run in, the call neither deadlocks nor runs forever.", "quantifier": "every slice, every limit, every goroutine interleaving", "why_tests_cant": "Tests observe one interleaving per run and a few limits.", "anchors": ["accumulator/common.go:SetProductParallel", "accumulator/common.go:setProductParallelWithChan"]}
{"id": "C03", "title": "ProveMembership returns one correct witness per element", "statement": "For a non-empty slice of representatives ProveMembership returns a slice of the same length whose i-th entry is base raised to the product of all the other representatives, modulo N; it panics exactly when the slice is empty.", "quantifier": "every base in [0,N), every modulus N>0, every slice of non-negative representatives", "why_tests_cant": "Quartering of odd sizes reaches many shapes (1..4 leaves, unequal quarters); tests pick three sizes and three indices.", "anchors": ["accumulator/accumulator.go:ProveMembership", "accumulator/accumulator.go:handleSmallSet"]}
{"id": "C04", "title": "Every returned witness verifies against the accumulator", "statement": "Raising the i-th witness to the i-th representative modulo N gives the same value for every i, and that value is base^(product of all representatives) mod N, i.e. the published accumulator.", "quantifier": "every index, every non-empty slice, every base and modulus", "why_tests_cant": "Tests check one or two indices for a fixed modulus.", "anchors": ["accumulator/accumulator.go:AccumulateNew", "accumulator/accumulator.go:ProveMembership", "accumulator/accumulator.go:AccAndProve"]}
{"id": "C05", "title": "Iterative witness generation agrees with the recursive one", "statement": "ProveMembershipIter terminates on every input, returns no proofs for the empty slice and otherwise returns exactly the witnesses that ProveMembership returns, in the same order.", "quantifier": "every base in [0,N), modulus, and slice", "why_tests_cant": "The linked-list worklist has data dependent passes; only an invariant over the list proves coverage and order for all lengths.", "anchors": ["accumulator/accumulator.go:ProveMembershipIter", "accumulator/accumulator.go:insertNewProofNode", "accumulator/accumulator.go:accumulate"]}
{"id": "C06", "title": "Iterative witness generation does not disturb its inputs", "statement": "ProveMembershipIter, although it exponentiates in place, leaves the caller's base, modulus and representatives unchanged, and the big integers it returns are pairwise distinct objects none of which is one of the caller's objects.", "quantifier": "every memory state, base, modulus, slice", "why_tests_cant": "A test would have to inspect object identity after every possible call; aliasing bugs only show for particular split orders.", "anchors": ["accumulator/accumulator.go:ProveMembershipIter", "accumulator/accumulator.go:insertNewProofNode", "accumulator/accumulator.go:accumulate", "accumulator/accumulator.go:accumulateNew"]}
{"id": "C07", "title": "ProveMembershipParallel is limit and schedule independent", "statement": "ProveMembershipParallel returns the same witnesses as ProveMembership for every limit and every goroutine interleaving, with no deadlock, and terminates.", "quantifier": "every non-empty slice, every limit, every interleaving", "why_tests_cant": "One interleaving per run.", "anchors": ["accumulator/concurrent.go:ProveMembershipParallel", "accumulator/concurrent.go:proveMembershipWithChan"]}
{"id": "C08", "title": "ProveMembershipParallelWithTable agrees with ProveMembership", "statement": "With a precomputation table valid for (base,N), ProveMembershipParallelWithTable returns the same witnesses as ProveMembership for every limit and interleaving.", "quantifier": "every non-empty slice, limit, interleaving", "why_tests_cant": "One interleaving per run; the table variant has no test at all.", "anchors": ["accumulator/concurrent.go:ProveMembershipParallelWithTable", "accumulator/concurrent.go:proveMembershipWithChan"]}
{"id": "C09", "title": "Single threaded randomised witnesses", "statement": "ProveMembershipSingleThreadWithRandomizer returns for each element base^(randomizer * product of the others) mod N, so each witness raised to its representative gives base^(randomizer*product) mod N; it panics exactly for slices shorter than 4.", "quantifier": "every slice, randomizer, base, modulus", "why_tests_cant": "No test covers it; quarters may be empty for short inputs.", "anchors": ["accumulator/accumulator.go:ProveMembershipSingleThreadWithRandomizer"]}
{"id": "C10", "title": "The randomizer is applied whatever the parallelism limit", "statement": "ProveMembershipParallelWithTableWithRandomizer (and its ...WithChan variant) produces witnesses that verify against the randomised accumulator base^(randomizer*product), whatever limit is passed.", "quantifier": "every limit, slice, randomizer, interleaving", "why_tests_cant": "The only way to see a missing randomizer is to compare across limits for arbitrary randomizers; the experiments discard the result.", "anchors": ["accumulator/concurrent.go:ProveMembershipParallelWithTableWithRandomizer", "accumulator/concurrent.go:ProveMembershipParallelWithTableWithRandomizerWithChan"]}
{"id": "C11", "title": "ProveMembershipIterParallel is correct on every machine and schedule", "statement": "ProveMembershipIterParallel returns exactly the witnesses of ProveMembershipIter for every CPU count and every interleaving of its goroutines; no send on a closed channel, no deadlock, and it always finishes.", "quantifier": "every CPU count >= 1, every slice, every interleaving", "why_tests_cant": "Tests run on one machine with one CPU count and the scheduler's favourite orders.", "anchors": ["accumulator/concurrent.go:ProveMembershipIterParallel", "accumulator/concurrent.go:initMembershipProofs", "accumulator/concurrent.go:proveMembershipIter", "accumulator/concurrent.go:insertNewProofNodeWithChan"]}
{"id": "C12", "title": "Worker count", "statement": "The number of workers used by the parallel APIs is the largest power of two not exceeding the CPU count, and the reported exponent is its base-2 logarithm.", "quantifier": "every CPU count >= 1", "why_tests_cant": "A test sees one machine.", "anchors": ["accumulator/concurrent.go:calNumWorkers"]}
{"id": "C13", "title": "The accumulate-and-prove entry points agree", "statement": "AccAndProve, AccAndProveIter, AccAndProveParallel and AccAndProveIterParallel return the same accumulator and the same witnesses for the same set and setup; the accumulator is G^(product of representatives) mod N; each of them panics on the empty set.", "quantifier": "every set of strings, encoding, setup with 0<=G<N, CPU count, interleaving", "why_tests_cant": "Needs all set sizes and all schedules.", "anchors": ["accumulator/accumulator.go:AccAndProve", "accumulator/accumulator.go:AccAndProveIter", "accumulator/concurrent.go:AccAndProveParallel", "accumulator/concurrent.go:AccAndProveIterParallel"]}
{"id": "C14", "title": "The accumulator does not depend on element order", "statement": "Reordering the set leaves the accumulator unchanged and reorders the witnesses in the same way: the witness of an element is unchanged.", "quantifier": "every permutation of every set", "why_tests_cant": "Infinitely many permutations.", "anchors": ["accumulator/accumulator.go:AccAndProve", "accumulator/accumulator.go:ProveMembership"]}
{"id": "C15", "title": "Incremental accumulation", "statement": "Accumulating a set B on top of the accumulator of A gives the accumulator of A followed by B; in particular a membership witness is the accumulator of the set without the element, and adding an element updates every older witness by one exponentiation.", "quantifier": "every pair of lists", "why_tests_cant": "Homomorphic law over all lists.", "anchors": ["accumulator/accumulator.go:AccumulateNew", "accumulator/accumulator.go:accumulateNew", "accumulator/accumulator.go:ProveMembership"]}
{"id": "C16", "title": "Zero-knowledge accumulation", "statement": "ZKAccumulate returns, for whatever randomizer r is drawn, the accumulator G^(r*product) mod N and witnesses that each verify against it.", "quantifier": "every randomizer draw, set, setup", "why_tests_cant": "The randomizer is internal and random, a test sees one draw.", "anchors": ["accumulator/zkacc.go:ZKAccumulate"]}
{"id": "C17", "title": "Division-intractable representatives", "statement": "Every representative produced with the Poseidon encoding has exactly 1024 bits and lies in [2^1023, 2^1023 + field modulus); two of them are equal only if the Poseidon outputs are equal, and one divides another only if they are equal.", "quantifier": "every pair of inputs and every hash function into the field", "why_tests_cant": "Divisibility between arbitrary hash outputs cannot be sampled.", "anchors": ["accumulator/hashes.go:DIHashPoseidon", "accumulator/hashes.go:PoseidonAndDIHash", "accumulator/genRep.go:genRepWithDIHashFromPoseidon", "accumulator/accumulator.go:init"]}
{"id": "C18", "title": "Representatives follow the set", "statement": "GenRepresentatives returns one representative per string, in order, each depending on that string only; the Poseidon encoding panics exactly when some string is not an optionally signed decimal number, and otherwise depends only on the number modulo the field modulus, so that numbers below the modulus are told apart by the hash input; unknown encodings behave as the prime encoding.", "quantifier": "every set of strings, every encode type", "why_tests_cant": "Infinite string domain.", "anchors": ["accumulator/accumulator.go:GenRepresentatives", "accumulator/genRep.go", "accumulator/hashes.go:ElementFromString"]}
{"id": "C19", "title": "HashToPrime returns the first accepted element of the hash chain", "statement": "Whenever HashToPrime returns, the value passes the primality test, is the first element of the chain sha(x), sha(sha(x)), ... that passes it, and is a 256-bit unsigned value; the result is a function of the input.", "quantifier": "every byte string, every hash function", "why_tests_cant": "Chain length is unbounded.", "anchors": ["accumulator/hashes.go:HashToPrime", "accumulator/hashes.go:SHA256ToInt"]}
{"id": "C20", "title": "UniversalHashToInt is odd, bounded and affine", "statement": "UniversalHashToInt(x) is odd, lies in [1,P], and equals x*A+B mod P or that value plus one; two inputs collide only if their affine images are equal or differ by one.", "quantifier": "every integer input, including negative ones", "why_tests_cant": "All integers.", "anchors": ["accumulator/hashes.go:UniversalHashToInt"]}
{"id": "C21", "title": "SimpleExp computes modular exponentiation", "statement": "SimpleExp(g,x,n) returns g^x mod n for every g>1, x>=1, n>1 (and panics otherwise).", "quantifier": "every g, x, n of any size", "why_tests_cant": "The word-stepping loop only goes wrong at specific bit lengths (65, 129..130, ...); the test uses x < 10^6.", "anchors": ["accumulator/mulexp.go:SimpleExp"]}
{"id": "C22", "title": "GCB extracts the common binary digits", "statement": "GCB(a,b) returns the integer whose binary digits are those common to a and b, and subtracts it from both arguments, which stay well-formed big integers.", "quantifier": "every pair of non-negative integers of any size", "why_tests_cant": "Words above 32 bits and cancellation to zero are not sampled by the test (values < 10^6).", "anchors": ["accumulator/mulexp.go:GCB", "accumulator/mulexp.go:CommonBits"]}
{"id": "C23", "title": "GenBenchSet elements are distinct", "statement": "GenBenchSet(n) returns n pairwise different strings, all accepted by the Poseidon encoding.", "quantifier": "every n", "why_tests_cant": "All n.", "anchors": ["accumulator/manualbench.go:GenBenchSet"]}
{"id": "C24", "title": "Trusted setup is usable", "statement": "The modulus returned by TrustedSetup is an odd 2048-bit number, and G and H are units modulo it, smaller than it and different from 1; hence all results about valid parameters apply to it.", "quantifier": "the single published setup", "why_tests_cant": "One test checks gcd(G,N) only; H is never checked.", "anchors": ["accumulator/accumulator.go:TrustedSetup", "accumulator/common.go:N2048String", "accumulator/common.go:G2048String", "accumulator/common.go:H2048String"]}
{"id": "C25", "title": "Transcript challenges are a function of the history", "statement": "Any sequence of Append, AppendSlice and challenge calls makes the same challenges as any other sequence that adds the same strings in the same order; every challenge is absorbed (as its decimal string) before the next one is derived; the caller's slice is copied at initialisation.", "quantifier": "every history of operations", "why_tests_cant": "Unbounded histories.", "anchors": ["fiat-shamir/transcript.go:InitTranscript", "fiat-shamir/transcript.go:Append", "fiat-shamir/transcript.go:AppendSlice", "fiat-shamir/transcript.go:GetChallengeAndAppendTranscript", "fiat-shamir/transcript.go:GetPrimeChallengeUsingTranscript", "fiat-shamir/transcript.go:GetIntChallengeUsingTranscript"]}
{"id": "C26", "title": "Challenges stay below their length limit", "statement": "With Max252 every prime challenge passes the primality test and is below 2^239 and below the SNARK field modulus; every integer challenge is below the same bound 2^239.", "quantifier": "every transcript, every hash function with 32-byte output", "why_tests_cant": "The one offending hash value cannot be found by sampling.", "anchors": ["fiat-shamir/transcript.go:wrapNumber", "fiat-shamir/transcript.go:HashToPrime", "fiat-shamir/transcript.go:HashToInt"]}
{"id": "C27", "title": "Different transcripts are hashed differently", "statement": "Two transcripts holding different lists of strings feed different inputs to the hash function (the encoding of the transcript is injective).", "quantifier": "every pair of transcripts", "why_tests_cant": "A quantification over pairs of transcripts.", "anchors": ["fiat-shamir/transcript.go:HashToPrime", "fiat-shamir/transcript.go:HashToInt"]}
{"id": "C28", "title": "GenPreTable builds the advertised table", "statement": "GenPreTable(base,N,bitLen,tableSize) has tableSize rows; row i holds base^(2^(i*(bitLen/tableSize))) mod N with exponent marker i*(bitLen/tableSize); it panics when bitLen<=tableSize or tableSize<=0.", "quantifier": "every base, modulus, bit length, table size", "why_tests_cant": "All sizes.", "anchors": ["precompute/comfromtable.go:GenPreTable"]}
{"id": "C29", "title": "ComputeFromTable is exponentiation", "statement": "With a table from GenPreTable, ComputeFromTable returns base^x mod N for every x>0, including x longer than the table's bit length, and panics for x<=0.", "quantifier": "every x>0 and every table", "why_tests_cant": "Bit-length boundaries at every multiple of the step.", "anchors": ["precompute/comfromtable.go:ComputeFromTable"]}
{"id": "C30", "title": "ComputeFromTableParallel is schedule independent", "statement": "ComputeFromTableParallel returns base^x mod N in every order of goroutine completion, never sends on the closed channel and never blocks; it refuses, as ComputeFromTable does, an x that is not positive and a table without rows or with columns of different lengths.", "quantifier": "every x>0, table, interleaving", "why_tests_cant": "One interleaving per run; it has no test.", "anchors": ["precompute/comfromtable.go:ComputeFromTableParallel", "precompute/comfromtable.go:getAccumulate"]}
{"id": "C31", "title": "Table.Compute is schedule independent", "statement": "If x>0 has at most as many bytes as the table covers and numRoutine>=1, Table.Compute returns g^x mod n under every interleaving of producer, workers and collector, never deadlocks, never crashes, and finishes after boundedly many non-idle steps.", "quantifier": "every x, chunk size, worker count, interleaving", "why_tests_cant": "Channel capacities and scheduling.", "anchors": ["precompute/precompute.go:NewTable", "precompute/precompute.go:Compute", "precompute/precompute.go:routineCompute"]}
{"id": "C32", "title": "A table sized by NewTable covers every product it was sized for", "statement": "A table made for numElements elements bounded by elementUpperBound can be used by Compute for every product of numElements such elements.", "quantifier": "every bound, element count, chunk size and element choice", "why_tests_cant": "Only chunk sizes that do not divide the bit length fail.", "anchors": ["precompute/precompute.go:NewTable", "precompute/precompute.go:Compute"]}
{"id": "C33", "title": "Table.Compute returns for every exponent", "statement": "Table.Compute returns for every non-negative exponent the table covers and every numRoutine>=1.", "quantifier": "every exponent, every schedule", "why_tests_cant": "Non-termination cannot be observed by a test.", "anchors": ["precompute/precompute.go:Compute"]}
{"id": "C34", "title": "PoKE* completeness", "statement": "If PoKEStarProve returns a proof for (C,x) then PoKEStarVerify accepts it for C, and PoKEStarProve returns an error exactly when G^x mod N differs from C.", "quantifier": "every parameter set, exponent (also negative), hash function", "why_tests_cant": "All exponents and all hash outputs.", "anchors": ["proof/poke.go:PoKEStarProve", "proof/poke.go:PoKEStarVerify"]}
{"id": "C35", "title": "PoE completeness", "statement": "If PoEProve returns a proof for (base,mod,C,x) then PoEVerify accepts it; PoEProve returns an error exactly when base^x mod N differs from C.", "quantifier": "every base, modulus, exponent, hash function", "why_tests_cant": "All exponents and hash outputs.", "anchors": ["proof/poke.go:PoEProve", "proof/poke.go:PoEVerify"]}
{"id": "C36", "title": "Zero-knowledge PoKE completeness", "statement": "If ZKPoKEProve returns a proof then ZKPoKEVerify accepts it, whatever random coins were drawn.", "quantifier": "every coin draw, parameters with invertible bases, exponent, hash function", "why_tests_cant": "Coins are internal.", "anchors": ["proof/poke.go:ZKPoKEProve", "proof/poke.go:ZKPoKEVerify"]}
{"id": "C37", "title": "PoE soundness", "statement": "PoEVerify accepts only true statements: acceptance implies base^x mod N = C.", "quantifier": "every proof", "why_tests_cant": "An adversarial proof has to be constructed.", "anchors": ["proof/poke.go:PoEVerify"]}
{"id": "C38", "title": "PoKE acceptance implies membership in the subgroup", "statement": "PoKEStarVerify (and ZKPoKEVerify) accept only if the claimed element is a power of the base.", "quantifier": "every proof, claimed element", "why_tests_cant": "An adversarial proof has to be constructed.", "anchors": ["proof/poke.go:PoKEStarVerify", "proof/poke.go:ZKPoKEVerify"]}
{"id": "C39", "title": "Proof-of-exponentiation verifiers always answer", "statement": "PoKEStarVerify, ZKPoKEVerify and PoEVerify return false on a nil proof and return a boolean (never panic) on every other proof whose components are present, for every modulus N>0.", "quantifier": "every proof content", "why_tests_cant": "All malformed contents.", "anchors": ["proof/poke.go:PoKEStarVerify", "proof/poke.go:ZKPoKEVerify", "proof/poke.go:PoEVerify", "proof/poke.go:MultiExp"]}
{"id": "C40", "title": "NewInt3 and NewInt4 sort absolute values", "statement": "NewInt3/NewInt4 return the absolute values of their arguments in descending order (a permutation of them); in particular the sum of squares is preserved.", "quantifier": "every tuple of integers", "why_tests_cant": "All orders, signs and ties.", "anchors": ["proof/parameters.go:NewInt3", "proof/parameters.go:NewInt4"]}
{"id": "C41", "title": "ThreeSquares returns a correct decomposition", "statement": "Whenever ThreeSquares(n) returns for n of the form 4k+1, the three returned integers are non-negative, in descending order and their squares sum to n - for every interleaving, every random choice, and even if the primality test wrongly accepts a composite.", "quantifier": "every n = 1 mod 4, CPU count, interleaving, random choices", "why_tests_cant": "Random and concurrent.", "anchors": ["proof/three_square.go:ThreeSquares", "proof/three_square.go:routineFindTS", "proof/three_square.go:findTwoSquares", "proof/three_square.go:isValidGaussianIntGCD", "proof/three_square.go:Verify"]}
{"id": "C42", "title": "ThreeSquares always returns", "statement": "ThreeSquares(n) returns for every n = 4k+1, k>=0, on every machine and schedule (so that the provers built on it return).", "quantifier": "every n, CPU count, interleaving", "why_tests_cant": "Deadlock and livelock.", "anchors": ["proof/three_square.go:ThreeSquares", "proof/three_square.go:routineFindTS", "proof/three_square.go:findTwoSquares"]}
{"id": "C43", "title": "Argument of positivity completeness", "statement": "For invertible G and H and every x>=0, r and coins, the argument produced by the prover (from any correct three-square decomposition) is accepted by the verifier for the prover's commitment.", "quantifier": "every x, r, coins, decomposition, hash function", "why_tests_cant": "Random and unbounded.", "anchors": ["proof/zkaop.go:Prove", "proof/zkaop.go:Verify", "proof/zkaop.go:VerifyResponse"]}
{"id": "C44", "title": "Argument of positivity soundness", "statement": "The verifier accepts only if the commitment is of the form G^x H^r mod N with x>=0.", "quantifier": "every commitment and argument", "why_tests_cant": "An adversarial argument has to be constructed.", "anchors": ["proof/zkaop.go:Verify", "proof/zkaop.go:newZKAoPChallenge"]}
{"id": "C45", "title": "Range proof completeness", "statement": "For invertible G and H, every range [a,b], x in it, r and coins, the range proof produced by the prover is accepted by the verifier for the same range.", "quantifier": "every range, x, r, coins, decomposition, hash function", "why_tests_cant": "Random and unbounded.", "anchors": ["proof/range_proof.go:Prove", "proof/range_proof.go:Verify", "proof/range_proof.go:VerifyResponse"]}
{"id": "C46", "title": "Range proof soundness", "statement": "The verifier for [a,b] accepts only if the committed value can lie in [a,b]; in particular nothing is accepted for an empty range.", "quantifier": "every commitment and proof", "why_tests_cant": "An adversarial proof has to be constructed.", "anchors": ["proof/range_proof.go:Verify", "proof/range_proof.go:newRPChallenge"]}
{"id": "C47", "title": "Verifiers are reusable", "statement": "The verdict of a range-proof or positivity verifier on a proof depends only on the parameters and on that proof, not on the proofs it verified before.", "quantifier": "every history of Verify calls", "why_tests_cant": "Unbounded histories.", "anchors": ["proof/range_proof.go:Verify", "proof/zkaop.go:Verify"]}
{"id": "C48", "title": "Range and positivity verifiers do not crash on malformed proofs", "statement": "Verify returns a boolean on every proof whose components are present.", "quantifier": "every proof content", "why_tests_cant": "All malformed contents.", "anchors": ["proof/range_proof.go:Verify", "proof/range_proof.go:VerifyResponse", "proof/zkaop.go:VerifyResponse"]}
{"id": "C49", "title": "Provers refuse false statements", "statement": "The range prover never outputs a proof for x outside [a,b], and the positivity prover never for x<0 (they panic).", "quantifier": "every x, range, coins", "why_tests_cant": "All x.", "anchors": ["proof/range_proof.go:Prove", "proof/zkaop.go:Prove", "proof/three_square.go:ThreeSquares"]}
{"id": "C50", "title": "Range prover commitments are not corrupted by pooled temporaries", "statement": "The commitment hashed by the range prover is the hash of the value it computed, whatever other goroutines do with the shared big-integer pool.", "quantifier": "every interleaving with other users of the pool", "why_tests_cant": "A use-after-free race.", "anchors": ["proof/range_proof.go:secondPartH", "proof/range_proof.go:commit", "proof/cache.go"]}
{"id": "C51", "title": "UpdateSet32.IsValid is exactly the shape check", "statement": "IsValid returns true iff there are at least two users and all five per-user lists have the same length; AssignCircuit panics exactly on invalid sets.", "quantifier": "every update set", "why_tests_cant": "All shapes.", "anchors": ["zkmultiswap/common.go:IsValid", "zkmultiswap/circuit.go:AssignCircuit"]}
{"id": "C52", "title": "MultiSwap circuit: user and range integrity", "statement": "Every assignment satisfying the MultiSwap circuit has strictly increasing (hence pairwise distinct) user IDs, balances and sums and current epoch below 2^32, each previous update epoch below the current epoch, and remainders below their challenges.", "quantifier": "every field assignment of every size", "why_tests_cant": "All field elements.", "anchors": ["zkmultiswap/circuit.go:Define"]}
{"id": "C53", "title": "MultiSwap circuit: the liability sum is updated exactly", "statement": "Every satisfying assignment has UpdatedSum = OriginalSum - sum of original balances + sum of updated balances over the integers, and conversely correct sums are accepted.", "quantifier": "every assignment, every number of users", "why_tests_cant": "The tests only use unchanged balances.", "anchors": ["zkmultiswap/circuit.go:Define"]}
{"id": "C54", "title": "MultiSwap circuit: remainders bind the removed and inserted products", "statement": "In every satisfying assignment whose Delta inputs are 2^1023 mod L, RemainderR1 is the product of the removed DI representatives and of the eight randomizers modulo L1, and RemainderR2 that of the inserted ones modulo L2, where each inserted representative hashes the removed one.", "quantifier": "every satisfying assignment, every hash function", "why_tests_cant": "All field elements; wrap-around of the field addition.", "anchors": ["zkmultiswap/circuit.go:Define", "accumulator/hashes.go:PoseidonAndDIHash"]}
{"id": "C55", "title": "Honest MultiSwap witnesses satisfy the circuit", "statement": "The assignment made from GenTestSet satisfies the MultiSwap circuit for every set size from 2 up to 2^31.", "quantifier": "every set size, every hash function into the field, every challenge", "why_tests_cant": "Fails only for hash values close to the field modulus.", "anchors": ["zkmultiswap/common.go:GenTestSet", "zkmultiswap/circuit.go:Define", "zkmultiswap/circuit.go:AssignCircuit"]}
{"id": "C56", "title": "MultiSwap challenges bind the accumulators", "statement": "The challenges derived for a MultiSwap depend on the old, intermediate and new accumulators (two swaps with different accumulators hash different transcripts).", "quantifier": "every pair of swaps", "why_tests_cant": "Needs a statement over all accumulators.", "anchors": ["zkmultiswap/common.go:SetupTranscript"]}
{"id": "C57", "title": "Public witness round trip", "statement": "The public witness built by the verifier from PublicPart is the public part of the prover's assignment, so VerifyPublicWitness accepts it; it accepts a public info iff its seven components agree with the witness modulo the field modulus.", "quantifier": "every valid update set and public info", "why_tests_cant": "All values.", "anchors": ["zkmultiswap/common.go:PublicPart", "zkmultiswap/circuit.go:AssignCircuitHelper", "zkmultiswap/zkmultiswap.go:VerifyPublicWitness", "zkmultiswap/zkmultiswap.go:GenPublicWitness"]}
{"id": "C58", "title": "Exported contract inputs follow the circuit's public input order", "statement": "The seven public inputs printed for the smart contract are in the order in which the circuit declares its public variables.", "quantifier": "every update set", "why_tests_cant": "The mismatch only matters on chain.", "anchors": ["zkmultiswap/common.go:TestMultiSwapAndOutputSmartContract2", "zkmultiswap/circuit.go:Circuit"]}
{"id": "C59", "title": "Merkle swap assignments satisfy the Merkle swap circuit", "statement": "The assignment built for a size satisfies the circuit, and any satisfying assignment has each output equal to the 28-fold hash chain of its input.", "quantifier": "every size, every hash function", "why_tests_cant": "All sizes.", "anchors": ["merkleswap/circuit.go:Define", "merkleswap/common.go:AssignCircuit"]}
{"id": "C60", "title": "Key and circuit files of different sizes never collide", "statement": "The file names used for circuits and keys are different for different set sizes and for the two circuit families.", "quantifier": "every pair of sizes", "why_tests_cant": "All pairs.", "anchors": ["zkmultiswap/zkmultiswap.go:SetupZkMultiswap", "zkmultiswap/zkmultiswap.go:Prove", "zkmultiswap/zkmultiswap.go:Verify", "merkleswap/common.go:SetupZkMultiswap"]}
{"id": "C61", "title": "The safe prime sieve rejects hopeless candidates", "statement": "safePrimeSieve returns false for every candidate p with p = (r-1)/2 mod r for one of the listed small primes r (for which 2p+1 is divisible by r).", "quantifier": "every candidate", "why_tests_cant": "Probabilistic callers hide it.", "anchors": ["accumulator/common.go:safePrimeSieve", "accumulator/common.go:testRemainder"]}
{"id": "C62", "title": "Hidden order group setup", "statement": "For safe primes p=2p'+1 and q=2q'+1, getOrder returns p'q'; the primes returned by the safe prime search are of the form 2p'+1 with both passing the primality test.", "quantifier": "every pair of primes and every random stream", "why_tests_cant": "Random.", "anchors": ["accumulator/common.go:getOrder", "accumulator/common.go:getSafePrime", "accumulator/common.go:getSuitablePrime"]}
{"id": "C63", "title": "Solidity verifier input canonicity", "statement": "The exported contract accepts only public inputs that are canonical field elements (below the scalar field modulus) and proof coordinates below the base field modulus, so no two congruent input vectors are both accepted.", "quantifier": "every call data", "why_tests_cant": "All call data.", "anchors": ["Notuscontract_g16.sol:verifyProof"]}
{"id": "C64", "title": "MultiSwap circuit: identifiers have 32 bits", "statement": "In every satisfying assignment all user identifiers are below 2^32 (the comment above the identifier check promises 'IDs in correct range').", "quantifier": "every satisfying assignment", "why_tests_cant": "All field elements; the tests only use small identifiers.", "anchors": ["zkmultiswap/circuit.go:Define"]}
{"id": "C65", "title": "Trusted setup prints a quadratic residue group", "statement": "If the primality test and Jacobi symbol are exact and the prime draws are distinct, the printed N is a product of two distinct safe primes (2p'+1)(2q'+1), g is a square coprime to N with g^(p'q') = 1 mod N, and h is a power of g. For 1023-bit draws N has 2048 bits and g and h are below N.", "quantifier": "every stream of random draws", "why_tests_cant": "Random, 2048-bit search.", "anchors": ["accumulator/common.go:TrustedSetupForQRN", "accumulator/common.go:getRanQR", "accumulator/common.go:isQR"]}
{"id": "C66", "title": "Contract constants are valid curve points", "statement": "All points of the verifying keys hard-coded in the three exported contracts are canonical and lie on the BN254 curve (G1) or its twist (G2), and there is one IC point more than public inputs.", "quantifier": "every point of every key", "why_tests_cant": "No contract tests exist; a wrong digit only shows on chain.", "anchors": ["Notuscontract_g16.sol:verifyingKey", "contract_g16.sol:verifyingKey", "zkmultiswap/gnark-tests/solidity/Notuscontract_g16.sol:verifyingKey"]}
{"id": "C67", "title": "The contract checks the Groth16 equation", "statement": "verifyProof returns true iff all inputs and coordinates are in range, A, B, C are valid points and e(A,B) = e(alpha,beta) + e(IC_0 + sum x_i IC_(i+1), gamma) + e(C,delta).", "quantifier": "every verifying key with valid points, every proof and input vector", "why_tests_cant": "All call data; no contract tests exist.", "anchors": ["Notuscontract_g16.sol:verifyProof", "Notuscontract_g16.sol:negate"]}
{"id": "C68", "title": "Membership of a non-member needs a root", "statement": "From any accepted witness w for x against the accumulator g^P one computes, with public data, a number u with u^x = g^gcd(x,P); if x does not divide P the exponent gcd(x,P) is at most x/2, and for a prime representative of a string outside the set u is an x-th root of g.", "quantifier": "every modulus, base coprime to it, set, hash, and candidate witness", "why_tests_cant": "Soundness quantifies over all adversarial witnesses; tests only check honest ones.", "anchors": ["accumulator/accumulator.go:AccAndProve", "accumulator/common.go:AccumulateNew", "accumulator/hashes.go:HashToPrime"]}
{"id": "C69", "title": "The accumulator is binding", "statement": "If two sets (prime representatives) have the same accumulator then their representatives agree up to order, or a nonzero exponent annihilating g has been found (a multiple of the order of g).", "quantifier": "every two sets, every setup with g coprime to N, every hash", "why_tests_cant": "Collisions range over all pairs of sets.", "anchors": ["accumulator/accumulator.go:AccAndProve", "accumulator/hashes.go:GenRepresentatives"]}
{"id": "C70", "title": "The randomised accumulator hides the set", "statement": "For two sets whose products are coprime to the order of g, every accumulator value is produced by the same number of randomizers, up to one, out of the 2^2047 the code draws from.", "quantifier": "every two sets, every accumulator value, every setup and hash", "why_tests_cant": "A distribution over 2^2047 randomizers.", "anchors": ["accumulator/zkacc.go:GenRandomizer", "accumulator/zkacc.go:ZKAccumulate"]}
{"id": "C71", "title": "PoKE* remainders are reduced", "statement": "Every accepted PoKE* proof has its remainder between 0 and the challenge.", "quantifier": "every statement and proof", "why_tests_cant": "Adversarial proofs are never generated by tests.", "anchors": ["proof/poke.go:PoKEStarVerify", "proof/poke.go:PoKEStarProve"]}
{"id": "C72", "title": "The PoKE experiment reconstructs the accumulator", "statement": "The last value printed by TestPoKE, Q^l * g^r mod N, is the accumulator of the benchmark set, the quotient and remainder printed recompose the exponent, and no step panics.", "quantifier": "every set size, setup with positive modulus, hash and primality test", "why_tests_cant": "The experiment only prints the numbers; nothing compares them.", "anchors": ["experiments/finaltests.go:TestPoKE"]}
{"id": "C73", "title": "The Notus update experiment simulates an update", "statement": "In TestNotusMultiSwap the old and new accumulators are the middle one raised to the old and new entries with their randomizers, the SNARK input is that of GenTestSet, the membership proofs verify against the new accumulator, the middle accumulator is the original one without the old entries, and nothing panics.", "quantifier": "every set size, update size, setup, hash", "why_tests_cant": "The experiment checks nothing but the SNARK; sizes are up to 2^18.", "anchors": ["experiments/finaltests.go:TestNotusMultiSwap", "experiments/finaltests.go:PoKE"]}
{"id": "C74", "title": "The parallel Notus experiment computes what the sequential one does", "statement": "TestNotusParallel produces the same SNARK input, accumulators and membership proofs as TestNotusMultiSwap, on every schedule.", "quantifier": "every set size, update size, setup, hash, schedule", "why_tests_cant": "Schedules and sizes; results are not compared by any test.", "anchors": ["experiments/finaltests.go:TestNotusParallel", "accumulator/common.go:SetProductParallel"]}
{"id": "C75", "title": "Range of products of division-intractable representatives", "statement": "genDIMin and genDIMax bound the product of any n DI representatives; both bounds have 1023n+1 bits, and TestRange prints a difference of between 1023n-766 and 1023n-766+bitlen(n) bits.", "quantifier": "every n from 0 to 2^765, every hash", "why_tests_cant": "All set sizes and hash values.", "anchors": ["experiments/integers.go:genDIMin", "experiments/integers.go:genDIMax", "experiments/integers.go:TestRange"]}
{"id": "C76", "title": "Precomputed tables are large enough", "statement": "The exponents the single-thread membership prover passes with a precomputed table never have more bits than the table's maxLen words, for the table sizes chosen by the experiments.", "quantifier": "every set of DI representatives, every randomizer, every set size", "why_tests_cant": "The boundary cases are sizes never benchmarked, and worst-case hash values.", "anchors": ["experiments/finaltests.go:TestRSAMembershipPreCompute", "experiments/finaltests.go:TestNotusMultiSwap", "accumulator/accumulator.go:ProveMembershipSingleThreadWithRandomizer"]}
{"id": "C77", "title": "Proof transcripts bind the statement", "statement": "Two different statements of PoKE*, PoE, ZKPoKE, the argument of positivity or the range proof never hash the same bytes for their challenge; in particular a false statement never shares its challenge with a true one.", "quantifier": "every group, statement, hash function", "why_tests_cant": "Numbers are hashed as concatenated decimals without separators; collisions need adversarially chosen digit boundaries that no test tries.", "anchors": ["proof/poke.go:PoEProve", "proof/poke.go:PoKEStarProve", "proof/poke.go:ZKPoKEProve", "proof/zkaop.go:Serialize", "proof/range_proof.go:Serialize", "fiat-shamir/transcript.go:HashToPrime"]}
{"id": "C78", "title": "Random draws are uniform in the documented range", "statement": "GenRandomizer, freshRandCoin, newThreeRandCoins, newFourRandCoins, the coins of ZKPoKE, of the argument of positivity and of the range proof, and the universal hash parameters are drawn uniformly and independently from exactly the documented intervals; a failing source gives an error (or panic), never a value.", "quantifier": "every byte source, every limit, every modulus", "why_tests_cant": "Tests sample; uniformity is a statement about all byte strings the source can deliver.", "anchors": ["accumulator/zkacc.go:GenRandomizer", "proof/parameters.go:freshRandCoin", "proof/parameters.go:newThreeRandCoins", "proof/parameters.go:newFourRandCoins", "proof/poke.go:ZKPoKEProve", "proof/zkaop.go:commit", "proof/range_proof.go:commit", "accumulator/common.go:RandomSetupForUniversalHash"]}
{"id": "C79", "title": "Responses of the positivity and range proofs hide what they mask", "statement": "For a fixed challenge, each response component of the argument of positivity and of the range proof is within statistical distance 2^-128 of a distribution independent of the secret it masks.", "quantifier": "every witness in bound, hash with 32-byte digests, every test on the responses", "why_tests_cant": "A statement about the distribution over all coins of thousands of bits.", "anchors": ["proof/zkaop.go:commit", "proof/zkaop.go:response", "proof/range_proof.go:commit", "proof/range_proof.go:response"]}
{"id": "C80", "title": "ZKPoKE answers hide the exponent", "statement": "For fixed challenges, the remainders published by ZKPoKEProve are within 2^-128 of independent of the exponent, and so is the pair of remainder and quotient power.", "quantifier": "every group with N of at least 114 bits, exponent pair, challenge, test on the answers", "why_tests_cant": "A statement about the distribution over all coins.", "anchors": ["proof/poke.go:ZKPoKEProve"]}
{"id": "C81", "title": "ThreeSquares leaves nothing running", "statement": "After ThreeSquares has returned, every goroutine it started ends.", "quantifier": "every n = 1 mod 4, number of CPUs, schedule, random draws", "why_tests_cant": "A test sees the returned value, not the goroutines left behind, and the ones that never end depend on the factorisation of a candidate.", "anchors": ["proof/three_square.go:ThreeSquares", "proof/three_square.go:routineFindTS", "proof/three_square.go:findTwoSquares"]}
{"id": "C82", "title": "ThreeSquares does not use its argument after returning", "statement": "No goroutine started by ThreeSquares reads the number passed to it after ThreeSquares has returned, so the callers may recycle that number; the value returned does not depend on what happens to it afterwards.", "quantifier": "every n, number of CPUs at least 2, schedule, value written by the next owner", "why_tests_cant": "The read needs a goroutine to be suspended between its look at the context and its use of the argument while the caller returns and recycles it.", "anchors": ["proof/three_square.go:ThreeSquares", "proof/three_square.go:routineFindTS", "proof/zkaop.go:commitForX", "proof/range_proof.go:commitForX"]}
{"id": "C83", "title": "Proofs verify with the keys of their size", "statement": "After any sequence of setups, test runs and contract exports of both circuit families and all sizes, Prove of a well-formed update set whose size was set up returns a proof; Verify accepts it exactly for that size and that public part modulo the field, if the set satisfies the circuit, and goes on accepting it until the keys of that size are replaced; the test drivers pass on every such directory.", "quantifier": "every history of setups and runs before and after, update set, size, public part", "why_tests_cant": "A test runs one history in one directory; mixing up key files of different sizes or circuits shows only in others.", "anchors": ["zkmultiswap/zkmultiswap.go:SetupZkMultiswap", "zkmultiswap/zkmultiswap.go:Prove", "zkmultiswap/zkmultiswap.go:Verify", "zkmultiswap/common.go:TestMultiSwap", "merkleswap/common.go:TestMerkleMultiSwap"]}
{"id": "C84", "title": "Prove reports inputs that violate the circuit", "statement": "Prove returns an error for an update set that does not satisfy the circuit.", "quantifier": "every update set and history of setups", "why_tests_cant": "Quantifies over all violating inputs.", "anchors": ["zkmultiswap/zkmultiswap.go:Prove"]}
{"id": "C85", "title": "Verify always gives a verdict", "statement": "Verify returns true or false for every proof, size and public part.", "quantifier": "every history of setups, proof, size, public part", "why_tests_cant": "Depends on which setups were run before in the directory.", "anchors": ["zkmultiswap/zkmultiswap.go:Verify", "zkmultiswap/zkmultiswap.go:LoadVerifyingKey"]}
{"id": "C86", "title": "The exported contract accepts the printed proof", "statement": "The Solidity contract exported by the drivers accepts exactly the proofs Verify accepts, in particular the one printed with it.", "quantifier": "every size, directory, randomness of the setups", "why_tests_cant": "The contract is run elsewhere; whether it carries the key the proof was made with depends on the randomness of two setups.", "anchors": ["zkmultiswap/common.go:TestMultiSwapAndOutputSmartContract", "zkmultiswap/common.go:TestMultiSwapAndOutputSmartContract2"]}
{"id": "C87", "title": "What an accepted swap proof means", "statement": "If Verify accepts a proof, whoever made it, then there are users, as many as the size, with increasing identifiers, 32-bit balances and earlier epochs, such that the two public remainders are the products of their shifted old and new leaves and of the randomizers modulo the public challenges.", "quantifier": "every proof object, public part, size, history of setups", "why_tests_cant": "Quantifies over all proofs an attacker could make.", "anchors": ["zkmultiswap/zkmultiswap.go:Verify", "zkmultiswap/circuit.go:Define"]}
{"id": "C88", "title": "A positivity prover can be reused, also next to other goroutines", "statement": "Every call of ZKAoPProver.Prove that returns a proof returns the one the value-level prover computes from the drawn coins, fails only when a draw or the three-square search fails, leaves the caller's numbers and all earlier proofs unchanged, and leaves the prover ready for the next call, whatever other users of the shared number pool do meanwhile.", "quantifier": "every sequence of calls, aliasing of the inputs, content and choice of pooled numbers, behaviour of the other users of the pool, coins", "why_tests_cant": "Aliasing and pool reuse bugs show only for particular interleavings and pool states; tests use a fresh prover once.", "anchors": ["proof/zkaop.go:Prove", "proof/zkaop.go:commit", "proof/cache.go:iPool", "proof/parameters.go:freshRandCoin"]}
{"id": "C89", "title": "A range prover can be reused", "statement": "Every call of RPProver.Prove that returns a proof returns the one the value-level prover computes from the drawn coins, leaves the caller's numbers and all earlier proofs unchanged and leaves the prover ready for the next call, whatever other users of the shared number pool do meanwhile.", "quantifier": "every sequence of calls, aliasing of the inputs, pool state, behaviour of the other users of the pool, coins", "why_tests_cant": "Depends on the interleaving with other users of the pool between a Put and a read.", "anchors": ["proof/range_proof.go:Prove", "proof/range_proof.go:secondPartH", "proof/cache.go:iPool"]}
{"id": "C90", "title": "Verifiers leave the proof alone and are safe next to other goroutines", "statement": "Verify of the range proof and of the positivity argument gives the answer of the value-level verifier whatever other users of the pool do, and changes neither the proof nor the public parameters.", "quantifier": "every proof, parameters, aliasing, pool state, behaviour of the other users of the pool", "why_tests_cant": "Quantifies over all interleavings and pool contents.", "anchors": ["proof/range_proof.go:Verify", "proof/zkaop.go:Verify", "proof/cache.go:iPool"]}
{"id": "C91", "title": "The basic zero-knowledge experiment ends", "statement": "TestBasicZKrsa with the trusted setup, run on any machine, ends with the accumulator of the benchmark set randomised by r, and neither of its two verifications (positivity of 100, knowledge of the exponent) fails or panics.", "quantifier": "every hash, primality test, Poseidon function, set of coins, number of CPUs and run of the search for squares", "why_tests_cant": "A test runs on one machine; whether the search for the squares of 401 returns depends on the number of CPUs and on the schedule.", "anchors": ["experiments/finaltests.go:TestBasicZKrsa", "proof/three_square.go:ThreeSquares", "proof/zkaop.go:Prove", "proof/poke.go:ZKPoKEProve"]}
{"id": "C92", "title": "Small values can be proved", "statement": "For every non-negative x below 2048 an argument of positivity of x can be produced, and a range proof for every x strictly inside or at the end of a range with (b-x)(x-a) below 2048: the search for three squares behind it has a run that returns.", "quantifier": "every x in [0, 2048), number of CPUs, schedule, primality test, gcd", "why_tests_cant": "Whether a search can ever return is a statement about all runs; a run that does not return is not distinguishable from a slow one.", "anchors": ["proof/three_square.go:ThreeSquares", "proof/zkaop.go:Prove", "proof/range_proof.go:Prove"]}
{"id": "C93", "title": "The membership experiments serve every user", "statement": "The drivers that precompute membership proofs (single thread, parallel, by groups, ManualBench in all variants) end without panic, and give every element of the benchmark set a proof that verifies against the randomised accumulator; the lengths printed by the product drivers are those of the product.", "quantifier": "every set size, limit, setup, randomizer, number of CPUs and schedule", "why_tests_cant": "The drivers are run with a few sizes and print times; nothing compares what they computed with the accumulator.", "anchors": ["experiments/finaltests.go:TestRSAMembershipPreComputeDIParallel", "experiments/finaltests.go:TestRSAMembershipPreCompute", "experiments/finaltests.go:TestDifferentGroupingSize", "experiments/finaltests.go:TestMembershipVerify", "experiments/integers.go:TestProduct", "experiments/integers.go:TestFirstLayerPercentage", "accumulator/manualbench.go:ManualBench"]}
{"id": "C94", "title": "Sessions of the program", "statement": "However often the program is started in a directory made by its own earlier runs, and whatever is entered, it never panics, it ends when the searches for primes end, entry 9 runs exactly what 1 to 6 run, other inputs run nothing, the directory afterwards is again one made by its runs, and the test of a size gives the same verdict in every session: passed exactly if the circuit of that size is satisfied.", "quantifier": "every sequence of inputs, initial directory reached by runs, random coins, hash, schedule of the goroutines", "why_tests_cant": "A test is one session in one directory; the statement is about all sequences of sessions and all schedules.", "anchors": ["main.go:main", "zkmultiswap/common.go:TestMultiSwap", "zkmultiswap/common.go:isCircuitExist", "experiments/finaltests.go:TestNotusMultiSwap", "experiments/finaltests.go:TestNotusParallel"]}
{"id": "C95", "title": "Lost key files", "statement": "After a key file of a size has been lost, running the test of that size again writes the missing keys and works; whoever keeps all files of a size or deletes all of them is never affected.", "quantifier": "every sequence of runs, setups, exports and losses of files, every size of both circuits", "why_tests_cant": "The directory is an argument no test varies; the claim is about every sequence of runs and losses.", "anchors": ["zkmultiswap/common.go:isCircuitExist", "zkmultiswap/common.go:TestMultiSwap", "merkleswap/common.go:TestMerkleMultiSwap", "zkmultiswap/zkmultiswap.go:Prove", "zkmultiswap/zkmultiswap.go:Verify", "main.go:main"]}
{"id": "C96", "title": "The deployed bytecode is the published source", "statement": "The bytecode that the Solidity test deploys (VerifierMetaData.Bin) behaves exactly as the contract source beside it says: for every call data and payment it returns the same answer, reverts with the same message in the same order of checks, fails when a precompiled contract fails, refuses payments, short call data and other selectors with empty revert data, and never crashes otherwise; its init code installs exactly that runtime code. It says yes exactly when the source's verifyProof does.", "quantifier": "every call data, payment, gas reading, behaviour of the elliptic curve precompiles", "why_tests_cant": "Tests call the contract on a handful of proofs; that 8 kB of compiled code agrees with the source on all inputs is not a matter of examples.", "anchors": ["zkmultiswap/gnark-tests/solidity/solidity_groth16.go:VerifierMetaData", "zkmultiswap/gnark-tests/solidity/Notuscontract_g16.sol:verifyProof", "zkmultiswap/gnark-tests/solidity/solidity_groth16.go:DeployVerifier"]}
{"id": "C97", "title": "Calling the contract from Go", "statement": "The contract's Go test turns the bytes of a raw proof back into exactly the coordinates of the proof; the call it packs reaches the deployed bytecode with those coordinates and the seven inputs, and the answer it unpacks is that of the contract source. The test passes exactly if the proof satisfies the Groth16 equation of the deployed key for the set's public witness and the first challenge is not the value 42 it uses as a wrong input; for a set made by GenTestSet that is exactly if the equation holds. A proof accepted for some inputs is refused when any one of them is changed, with the answer no below the field order and with an error above it.", "quantifier": "every proof, trailing bytes, public info, group with a pairing, gas reading, changed input", "why_tests_cant": "The test tries one proof and one changed value; that no other value of any input passes, and that 42 cannot be the right one, is a statement about all of them.", "anchors": ["zkmultiswap/gnark-tests/solidity/solidity_groth16_test.go:TestVerifyProof", "zkmultiswap/gnark-tests/solidity/solidity_groth16.go:VerifyProof", "zkmultiswap/common.go:GenTestSet"]}
{"id": "C98", "title": "The contract and the program agree", "statement": "For the same verifying key, proof and public info the contract says yes exactly when the program's verifier does.", "quantifier": "every proof, public info of 256-bit values, group with a pairing", "why_tests_cant": "Both verifiers are run on one honest set in tests; values outside the field are never tried.", "anchors": ["zkmultiswap/zkmultiswap.go:Verify", "zkmultiswap/zkmultiswap.go:GenPublicWitness", "zkmultiswap/gnark-tests/solidity/Notuscontract_g16.sol:verifyProof"]}
{"id": "C99", "title": "The accumulator and table tests pass for every draw and schedule", "statement": "TestSetup, TestAccAndProve, TestAccAndProveIter, TestAccAndProveIterParallel, TestProduct, TestCommonBits, TestGCB and both cases of TestTable_Compute report no error and do not crash: for every set they draw, every number of processors, every interleaving of their goroutines, every hash function for which the prime search ends.", "quantifier": "all draws, all hash functions with their documented ranges, all processor counts, all schedules", "why_tests_cant": "A test run samples one draw and one schedule; that the tests are not flaky is a statement about all of them.", "anchors": ["accumulator/accumulator_test.go:11-167", "accumulator/concurrent_test.go:5-66", "accumulator/common_test.go:7-25", "accumulator/mulexp_test.go:9-56", "precompute/precompute_test.go:59-143"]}
{"id": "C100", "title": "TestSimpleExp passes for every draw", "statement": "TestSimpleExp compares SimpleExp with big.Int.Exp on three random numbers below 1000000 and passes for every draw. (False: it panics when the base or the modulus is 0 or 1 or the exponent is 0; these are 4999992000004 of the 10^18 draws.)", "quantifier": "all triples of draws", "why_tests_cant": "The failing draws have probability 5e-6: a test run practically never shows them.", "anchors": ["accumulator/mulexp_test.go:58-82"]}
{"id": "C101", "title": "The transcript tests pass for every hash function", "statement": "Whenever the prime search ends, TestConstants, TestTranscript, TestPrimeChallengeLength and the fuzz target FuzzChallenge report no error, for every 32-byte hash, every primality test that refuses 2^239, every fuzzed string; TestChallenge reports no error either. (The last is false: TestChallenge fails exactly when two successive challenges coincide, which no property of the code excludes.)", "quantifier": "all hash functions, primality tests, fuzz inputs", "why_tests_cant": "The tests run with one hash on five seeds; the fuzz target quantifies over all strings.", "anchors": ["fiat-shamir/transcript_test.go:9-114"]}
{"id": "C102", "title": "The circuit tests test what they say", "statement": "TestPublicWitness passes; TestZkMultiSwap succeeds; in TestZkMultiSwapFailCases each of the seven edited assignments violates the constraint it is named after and is therefore refused. (False for the case 'incorrect range of user balance': 1000000000 is below 2^32, the assignment respects every range and the sum, and is refused only because Poseidon gives the changed leaf another remainder.)", "quantifier": "all Poseidon functions into the field, all relations for MulModP, all challenges", "why_tests_cant": "Passing once with the real hash does not tell why a case was refused, nor whether the range check is exercised.", "anchors": ["zkmultiswap/zkmultiswap_test.go:15-108"]}
{"id": "C103", "title": "The contract's test and the generated files", "statement": "From a fresh clone of the repository, the test of the contract in zkmultiswap/gnark-tests/solidity passes after any sequence of the directory's own commands (main.go, solc, abigen, go generate, make clean, git checkout).", "quantifier": "all sequences of commands, all setups, all proofs the test may make", "why_tests_cant": "A test run sees one state of the directory. Whether the key files, the contract and the binding stem from one setup depends on the whole history.", "anchors": ["zkmultiswap/gnark-tests/solidity/generate.go:3-5", "zkmultiswap/gnark-tests/solidity/contract/main.go:26-62", "zkmultiswap/gnark-tests/Makefile:5-6", "zkmultiswap/gnark-tests/solidity/solidity_groth16_test.go:53-201"]}
{"id": "C104", "title": "A swap proof pins the liability sums", "statement": "The public values and the users of an accepted swap fix OriginalSum and UpdatedSum. (False: the sums are private and in no hash. Exactly the pairs of 32-bit sums with the same difference go through, with the same public values, and the proof for moved sums is accepted for the original's public part.)", "quantifier": "all assignments, all pairs of sums, all Poseidon functions into the field, all histories of setups", "why_tests_cant": "A test proves with one pair of sums; that every other pair with the same difference is accepted too concerns all witnesses.", "anchors": ["zkmultiswap/circuit.go:27-28", "zkmultiswap/circuit.go:53-54", "zkmultiswap/circuit.go:69-96"]}
{"id": "C105", "title": "A user's history through the swaps", "statement": "When each accepted swap removes the leaf that an earlier one inserted, the user keeps the identifier, every update starts from the balance, epoch and hash the one before left, and epochs strictly increase; the newest leaf fixes the whole history. Otherwise two entries of the chain are an explicit collision of Poseidon.", "quantifier": "all chains of accepted swaps of any length, all Poseidon functions", "why_tests_cant": "The repository's tests make one swap; chains have unbounded length.", "anchors": ["zkmultiswap/circuit.go:72-85"]}
{"id": "C106", "title": "The sum follows the ledger over epochs", "statement": "If every swap starts from the ledger's balances and the sum of the swap before, the sum equals the total of all users' balances after every epoch. (False: sum and total drift apart by the change of the first user of every swap; they agree if no swap changes its first user.)", "quantifier": "all ledgers, all sequences of accepted swaps", "why_tests_cant": "The tests use swaps with equal sums and one epoch; drift only shows over changed balances and sequences.", "anchors": ["zkmultiswap/circuit.go:69-96"]}
{"id": "C107", "title": "Mul multiplies the four numbers of a group", "statement": "NewInt4 and NewInt3 return the caller's own cells in descending order after making them absolute, and Int4.Mul(n) multiplies every number of the group by n. (Mul is false if two entries are one cell, or if n is itself an entry: shared cells are multiplied once per occurrence, and the entries after n by n squared.)", "quantifier": "all memories, all pointers, shared or not, nil or not", "why_tests_cant": "Tests use fresh integers; sharing between arguments, entries and factor is a matter of all memory layouts.", "anchors": ["proof/parameters.go:31-67", "proof/parameters.go:123-142"]}
{"id": "C108", "title": "Div undoes Mul", "statement": "For n <> 0, Int4.Div(n) after Int4.Mul(n) gives the numbers back; Div panics exactly for a nil entry, a nil divisor and 0. (Undoing is false if n is one of the entries; it holds for every other n, even if entries share cells.)", "quantifier": "all memories, all groups, all divisors", "why_tests_cant": "Rounding, signs and sharing concern all numbers and memory layouts.", "anchors": ["proof/parameters.go:62-74"]}
{"id": "C109", "title": "Printed groups and test elements tell values apart", "statement": "Two groups print alike exactly if they hold the same numbers (or nil) at the same places; GetPseudoRandomElement gives different elements for different integers and the integer can be read back.", "quantifier": "all groups in all memories, all integers", "why_tests_cant": "Injectivity quantifies over all pairs of values.", "anchors": ["proof/parameters.go:76-86", "accumulator/common.go:222-228"]}
{"id": "C110", "title": "Fresh parameters of the universal hash", "statement": "RandomSetupForUniversalHash prints the first drawn P that passes the prime test and A, B below P for which different inputs below P have different images. (False: A may be 0, as often as any other value, and then all inputs collide; for A <> 0 images differ and at most two inputs share a hash value.)", "quantifier": "all draws, all sources of random bytes, all inputs below P", "why_tests_cant": "The setup is randomised and never tested; a test sees one draw.", "anchors": ["accumulator/common.go:253-283", "accumulator/hashes.go:87-97"]}
{"id": "C111", "title": "How many goroutines the parallel functions start", "statement": "ProveMembershipParallel, its variants with a table and with a randomizer and SetProductParallel start at most 2^(limit+1) goroutines in every run, for every set and every limit, as their comments promise ('at most O(2^limit) Goroutines'), and never more are alive at a time; for large sets the count is exactly 2^(limit+1) - 4.", "quantifier": "forall sets, limits and interleavings of the goroutines", "why_tests_cant": "A test runs one schedule for one set size and does not count goroutines; the bound is about every set, every limit and every interleaving.", "anchors": ["accumulator/concurrent.go:47", "accumulator/concurrent.go:101", "accumulator/concurrent.go:174", "accumulator/concurrent.go:229", "accumulator/common.go:169"]}
{"id": "C112", "title": "The parallel table and proof functions leave nothing running", "statement": "After Table.Compute (positive exponent within the table, at least one worker), ComputeFromTableParallel (positive exponent) and ProveMembershipIterParallel have returned, every goroutine they started - workers, helpers, collectors - ends: whatever the scheduler does, only finitely many steps happen, and as long as one goroutine is left some goroutine can move. With exponent 0 the goroutines of Table.Compute wait for ever.", "quantifier": "forall inputs, worker counts and interleavings of the goroutines", "why_tests_cant": "A leaked goroutine does not fail a test; whether one stays blocked depends on the interleaving of channel operations after the result was delivered.", "anchors": ["precompute/precompute.go:37", "precompute/precompute.go:85", "precompute/comfromtable.go:135", "accumulator/concurrent.go:323", "accumulator/concurrent.go:385"]}
{"id": "C113", "title": "The membership functions do O(n log n) modular work", "statement": "For n elements of at most b bits, ProveMembership executes at most 2(n-1) modular exponentiations whose exponents have at most 1.5 b n log2(n) bits together, and at most 2 n log2(n) integer multiplications; the function with a randomizer r adds at most 4 times the bits of r, and the parallel functions execute no more, whatever the limit and the interleaving. The bound on the exponent bits is tight: for n = 4^k elements of b bits they are at least 1.5 (b-1) n log2(n).", "quantifier": "forall sets, sizes, moduli, bases, limits and interleavings", "why_tests_cant": "Running times on a few sizes show neither a bound nor its shape; the comments claim an asymptotic bound for every size.", "anchors": ["accumulator/accumulator.go:72", "accumulator/accumulator.go:99", "accumulator/concurrent.go:46", "accumulator/concurrent.go:100", "accumulator/concurrent.go:173", "accumulator/concurrent.go:228", "accumulator/concurrent.go:286"]}
{"id": "C114", "title": "The integer products of ProveMembership take O(n log n) time", "statement": "The time O(n log n) stated in the comments also covers the integer products: the bits written by them stay below a constant times b n log2(n).", "quantifier": "forall sets and sizes", "why_tests_cant": "The extra logarithmic factor is invisible on the sizes a test can run.", "anchors": ["accumulator/accumulator.go:99", "accumulator/common.go:151"]}
{"id": "C115", "title": "The limit divides all but O(n) of the modular work", "statement": "With a positive limit L and n > 4 elements of at most b bits, the longest chain of exponentiations that must follow each other has at most 4.5 b n exponent bits plus the work of one goroutine on its share of n / 2^max(2,L) elements. The first goroutine alone processes 3 (b-1) n bits before any other starts, so the work of a call is at most b / (b-1) * log2(n) / 2 times this chain, whatever the limit and the number of cores.", "quantifier": "forall sets, limits, moduli and interleavings", "why_tests_cant": "Measurements on one machine with few cores cannot show the part of the work that no number of cores divides.", "anchors": ["accumulator/concurrent.go:48", "accumulator/concurrent.go:102", "accumulator/concurrent.go:176", "accumulator/concurrent.go:231", "accumulator/concurrent.go:287", "experiments/finaltests.go:228"]}
{"id": "C116", "title": "The iterative membership functions use few and small exponentiations", "statement": "ProveMembershipIter forms no integer product. Every exponentiation it executes has one of the representatives as its exponent, and for n representatives of at most b bits it executes at most n*ceil(log2 n) of them, that is at most b*n*ceil(log2 n) exponent bits, even if it panics half way. ProveMembershipIterParallel stays within the same bounds at every moment and under every schedule of its goroutines. For 4^k representatives of c+1 bits ProveMembershipIter never exponentiates by more bits than ProveMembership.", "quantifier": "forall memories, sets (also with shared integers), bases, moduli, CPU counts and interleavings", "why_tests_cant": "A benchmark measures a few sizes on one machine; no test counts the operations, and no finite number of runs covers all sizes and interleavings.", "anchors": ["accumulator/accumulator.go:136", "accumulator/accumulator.go:169", "accumulator/accumulator.go:231", "accumulator/concurrent.go:323", "accumulator/concurrent.go:385", "accumulator/concurrent.go:433", "accumulator/concurrent.go:459"]}
{"id": "C117", "title": "Benchmarks time b.N calls", "statement": "Every benchmark of accumulator/benchmark_test.go and BenchmarkAccumulate runs the measured function exactly b.N times with the right result, for every b.N the testing package may choose, and a failing random source ends it with b.Fatal. (False of five benchmarks: Exp and DoubleExp crash past b.N = 10000, DoubleExp and FourfoldExp make 1 and 4 calls too few, SimpleExp and GCB make 100 and 9999 calls whatever b.N is, so that the reported time per operation is the time of one run divided by the largest b.N; and only the error of the last random draw is looked at.)", "quantifier": "all b.N, all random draws, all hash functions and primality tests, all ways the testing package raises b.N", "why_tests_cant": "A benchmark has no assertions; its figures are printed whatever they mean, and b.N depends on the machine.", "anchors": ["accumulator/benchmark_test.go:11-228", "precompute/precompute_test.go:150-165"]}
{"id": "C118", "title": "The printed size of a precomputed table", "statement": "TestPreComputeTableSize prints how many bytes the precomputed table takes: its rows, its columns, the size of an element and the total. (False: the rows and columns are right, but every entry, a residue of a 2048-bit modulus, is counted as one 64-bit word; the printed total is below the size of the table for every one of the six sizes the program uses, by a factor of up to 32.)", "quantifier": "all set sizes whose total stays inside an int, all moduli and units of them", "why_tests_cant": "The figure is only printed, and the table of the smallest size already takes hundreds of megabytes.", "anchors": ["experiments/finaltests.go:210-224", "experiments/finaltests.go:294-302"]}
{"id": "C119", "title": "Hash helpers", "statement": "GenerateG prints the product modulo N of eight successive SHA-256 hashes, starting from the digits of N, and prints its warning exactly when the product is no unit, which is then a factorisation of N (false: a product of zero gives the warning without a factor). PoseidonWith2Inputs takes exactly two inputs, reduces both to the field, and keeps their order: equal results mean equal residues or a collision of Poseidon.", "quantifier": "all hash functions, all inputs", "why_tests_cant": "No test calls either function, and the outcome depends on the hash function used.", "anchors": ["accumulator/common.go:81-102", "accumulator/hashes.go:62-84"]}
{"id": "C120", "title": "The Pairing library of the binding does nothing", "statement": "DeployPairing stores the library's code with the account's own address in place of the zeros after the first instruction, whatever is paid; from then on every call of the account, with any call data and payment, is refused without an answer, so nothing the verifier decides depends on the library and what was paid for the deployment stays there.", "quantifier": "for all addresses, call data, payments, gas answers and precompiled contracts", "why_tests_cant": "The contract's test deploys only the verifier; a test would call the library with a few byte strings, not with all.", "anchors": ["zkmultiswap/gnark-tests/solidity/solidity_groth16.go:33-36", "zkmultiswap/gnark-tests/solidity/solidity_groth16.go:47-63"]}
{"id": "C121", "title": "Products and membership proofs are numbers of the caller's own", "statement": "The recursive product and membership functions, AccAndProve and ZKAccumulate write to none of the numbers they are given (the setup, the base, the elements, however these share memory), and every number they return is new and different from the others: overwriting one result changes neither the arguments nor another result.", "quantifier": "for all memories, all ways of sharing cells among the arguments, all set sizes", "why_tests_cant": "A test compares values; that two results are the same pointer, or that a result is the caller's base, shows only when someone later overwrites one of them.", "anchors": ["accumulator/common.go:115-166", "accumulator/accumulator.go:46-125", "accumulator/accumulator.go:186-229", "accumulator/zkacc.go:20-36"]}
{"id": "C122", "title": "A precomputed table does not depend on what becomes of the caller's numbers", "statement": "After a table has been made, overwriting the base, the modulus, the bound or any other number that existed at that time does not change what is computed from the table: the original base raised to the exponent, modulo the original modulus. The computation writes to no existing number and returns a new one.", "quantifier": "for all memories, all later overwritings of the numbers that existed when the table was made, all exponents and numbers of goroutines", "why_tests_cant": "The tests make a table and use it at once with the same untouched pointers; a pointer kept instead of a copy shows only after a later write to the caller's number.", "anchors": ["precompute/precompute.go:19-77", "precompute/comfromtable.go:34-132"]}
{"id": "C123", "title": "The iterative functions share no words with the caller's numbers", "statement": "ProveMembershipIter, AccAndProveIter and ProveMembershipIterParallel take the base as a big.Int by value, a copy that shares its words with the original. Nevertheless a call leaves every number of the caller as it was, down to the words, and storing something in a number it returned changes no other number.", "quantifier": "for all memories, all ways of sharing words among the arguments, all sets (negative numbers included), all uses of the receiver's words by math/big's exponentiation", "why_tests_cant": "A test compares the returned values; that a returned number lives in the words of setup.G shows only when someone later stores into it, and the in-place overwrite needs a particular sign.", "anchors": ["accumulator/accumulator.go:61-70", "accumulator/accumulator.go:127-184", "accumulator/accumulator.go:225-255", "accumulator/concurrent.go:323-327"]}
{"id": "C124", "title": "The public part is independent of the prover's set", "statement": "PublicPart returns numbers equal to those of the UpdateSet32, and storing into one of them changes nothing in the set it came from, nor the other way round.", "quantifier": "for all memories and all sets", "why_tests_cant": "The copied structs read the same; the shared words show only when one side is overwritten later.", "anchors": ["zkmultiswap/common.go:187-197"]}
{"id": "C125", "title": "The tests of the accumulator notice a wrong accumulator or membership proof", "statement": "If the checks made by the tests of AccAndProve, AccAndProveIter, ProveMembershipIter and ProveMembershipIterParallel pass on a returned accumulator and list of proofs, then the accumulator is the one of the set and every proof in the list verifies.", "quantifier": "for all sets, representatives, returned accumulators and lists of proofs, and all lists of checked positions", "why_tests_cant": "A test cannot show what it fails to notice; that needs the set of all outputs it accepts.", "anchors": ["accumulator/accumulator_test.go:30-158", "accumulator/concurrent_test.go:48-66"]}
{"id": "C126", "title": "The two goroutines of proveMembershipIter do not race", "statement": "At no moment are the next memory accesses of the two goroutines of proveMembershipIter in conflict (the same variable, list node field or number, one of them writing). They write only their own variables, list nodes and numbers they made, never the base, the modulus or the elements. However their single accesses interleave, and whatever other goroutines do to other numbers meanwhile, the call ends, the helper ends after it, nothing crashes, and the returned numbers are the membership witnesses of the range.", "quantifier": "for all sets, ranges, bases and moduli, all interleavings of single memory accesses, all behaviours of the rest of the program on other numbers", "why_tests_cant": "The race detector sees only the interleavings that happen in a run; freedom from races is about all of them.", "anchors": ["accumulator/concurrent.go:385-431", "accumulator/concurrent.go:459-476"]}
{"id": "C127", "title": "append and sub-slices never reach into the caller's array", "statement": "The divide-and-conquer provers cut their set into sub-slices that share one array, and put their results together with append. None of them, sequential or parallel, with or without a randomizer, changes any array that existed before the call, not even the cells behind the elements of the set. They write only arrays made during the call, read only the elements of the set and arrays made during the call, no two of their goroutines touch the same cell with one of them writing, and the returned slice lies in a new array and holds the witnesses in order. The iterative functions append into the one array they made. The goroutine collecting the workers' results ends with the whole list in whatever order they arrive. In the experiments, the set before and the set after an update, both appended to the same slice, do not disturb each other.", "quantifier": "for all sets and slices with any offset and spare capacity, all contents of memory, all choices of the runtime for the capacity of a grown slice", "why_tests_cant": "Whether append writes in place depends on capacities, which tests with freshly made slices do not vary; a value overwritten behind the caller's slice is not looked at by any test.", "anchors": ["accumulator/accumulator.go:73-125", "accumulator/accumulator.go:162-222", "accumulator/common.go:151-166", "accumulator/concurrent.go:48-313", "accumulator/concurrent.go:351-363", "accumulator/concurrent.go:426-430", "accumulator/genRep.go:9-26", "experiments/finaltests.go:546-555", "experiments/finaltests.go:691-700"]}
{"id": "C128", "title": "Parallel provers under every schedule", "statement": "Whatever order the scheduler chooses for the single array reads, writes and allocations of the goroutines of ProveMembershipParallel, of the parallel provers with a randomizer and of SetProductParallel: no goroutine panics, two goroutines never stand before conflicting accesses of one cell, the caller's arrays stay as they are, only the elements of the given slice and new arrays are read, the call neither gets stuck nor runs for ever, and the result, in a new array, is the same for every schedule: the witnesses (or the product). The same holds of two such calls running at the same time on overlapping or equal sets, whose results are in different arrays.", "quantifier": "for all sets, slices with any offset and spare capacity, bases, moduli, limits, growth policies of append, and all schedules (every reachable state, every infinite run)", "why_tests_cant": "A test run sees the one schedule the machine happens to take; the race detector reports only races of the executed schedule", "anchors": ["accumulator/concurrent.go:48-98", "accumulator/concurrent.go:102-171", "accumulator/concurrent.go:176-284", "accumulator/concurrent.go:287-313", "accumulator/accumulator.go:73-125", "accumulator/accumulator.go:186-222", "accumulator/common.go:151-220"]}
{"id": "C129", "title": "Numbers of the parallel provers under every schedule", "statement": "With every *big.Int in memory as well as every slice cell, and the goroutines of ProveMembershipParallel, of the parallel provers with a randomizer and of SetProductParallel interleaved in any way: no two goroutines ever stand before conflicting accesses of one number or cell; the base, the modulus, the randomizer, the set's elements and the slice are read and never written, even when one number is passed in several of these roles or occurs twice in the set; the result is a new slice of new numbers, pairwise different, that hold the witnesses. Two such calls at the same time with the same arguments return slices with no array and no number in common.", "quantifier": "for all heaps, arguments (aliased in any way), limits, growth policies of append, and all schedules", "why_tests_cant": "A shared or reused big.Int shows up only under the schedule in which both goroutines touch it, and only if a test then looks at the number again; aliasing of results is seen only when a caller later overwrites one", "anchors": ["accumulator/concurrent.go:48-313", "accumulator/accumulator.go:73-125", "accumulator/accumulator.go:186-229", "accumulator/common.go:151-220"]}
{"id": "C130", "title": "A copied transcript and its original have separate histories", "statement": "Whatever calls a program makes on any number of Transcript values, including copies made by assigning the struct, each value's info is the list of strings given to that value and, for a copy, the list of its original at the time of the copy; a later Append, AppendSlice or challenge on one value never changes another.", "quantifier": "every sequence of InitTranscript, struct copies, Append, AppendSlice and challenge calls on any number of transcripts, every growth policy of append, every challenge function", "why_tests_cant": "whether two slice headers share an array with room to spare depends on the growth of append and on the number of strings appended so far; a test that happens to copy a full slice passes and one that copies after SetupTranscript silently shares a cell", "anchors": ["fiat-shamir/transcript.go:31-34", "fiat-shamir/transcript.go:45-61", "fiat-shamir/transcript.go:64-85", "zkmultiswap/common.go:95-98"]}
{"id": "C131", "title": "The goroutines of Table.Compute never race on a number", "statement": "While Table.Compute runs, with any number of worker goroutines, the collector and the rest of the program interleaved at every single read and write of a number, no two goroutines of the call are about to access the same number with one of them writing it; they only read the caller's numbers, touch no number made by another goroutine of the program, change no number of the caller, and the call ends with a number of its own that holds g^x mod n and keeps holding it while workers are still winding down.", "quantifier": "every table NewTable builds and every x that fits, every number of goroutines, every layout of the table in memory (rows may share cells), every schedule of single reads and writes, every behaviour of the rest of the program on its own numbers, those made before the call included", "why_tests_cant": "a race shows only under particular interleavings of single memory accesses, and a shared scratch number or a reused result gives the right answer under most schedules", "anchors": ["precompute/precompute.go:37-77", "precompute/precompute.go:85-100"]}
{"id": "C132", "title": "The goroutines of ComputeFromTableParallel never race on a number", "statement": "While ComputeFromTableParallel runs, with its goroutines, the caller's goroutine and the rest of the program interleaved at every single read and write of a number, no two of them are about to access the same number with one of them writing it; the goroutines change no number of the caller (the table, x and N included), touch no number made by another part of the program, and the call ends with a number of its own that holds base^x mod N and keeps holding it; it refuses an x that is not positive and a table without rows or with columns of different lengths before any goroutine starts.", "quantifier": "every table GenPreTable builds, every positive x, every modulus above one, every layout of the table in memory (rows may share cells), every schedule of single reads and writes, every behaviour of the rest of the program on its own numbers, those made before the call included", "why_tests_cant": "a race shows only under particular interleavings of single memory accesses; prod is guarded by a mutex that nobody else takes, so only the ownership of each number decides whether the code is safe", "anchors": ["precompute/comfromtable.go:135-201", "precompute/comfromtable.go:203-207"]}
{"id": "C133", "title": "Many calls of ComputeFromTableParallel may run at once", "statement": "When any number of goroutines call ComputeFromTableParallel at the same time, on tables, moduli and bases that share numbers as they please, then under every interleaving of single reads and writes no two of all these goroutines are about to access the same number with one of them writing it, no number that was there before any call changes, and all calls return, each with a number of its own that holds its own base^x mod N.", "quantifier": "every list of calls, every table GenPreTable builds, every positive x and modulus above one, every sharing of numbers between calls, every moment a call begins, every schedule of single reads and writes", "why_tests_cant": "tests call it from one goroutine; sharing a precomputed table between calls is the purpose of the table, and whether that is safe depends on every interleaving of the calls", "anchors": ["precompute/comfromtable.go:135-201", "precompute/comfromtable.go:203-207"]}
{"id": "C134", "title": "What PrintTable prints determines the table", "statement": "PrintTable prints two lines for each row, in order, from which the table can be read back: two tables with the same text are equal, in particular any two tables GenPreTable made; it panics exactly when a table has fewer positions than bases.", "quantifier": "every table, every number of rows, numbers of any size and sign", "why_tests_cant": "a test compares a few texts; that no two of all tables share one needs an argument about every digit string", "anchors": ["precompute/comfromtable.go:25-31"]}
{"id": "C135", "title": "What Transcript.Print prints determines the transcript", "statement": "Two transcripts with different strings are printed differently.", "quantifier": "every list of strings", "why_tests_cant": "a test compares a few transcripts; a clash needs two lists chosen together", "anchors": ["fiat-shamir/transcript.go:36-42"]}
{"id": "C136", "title": "Many calls of Table.Compute may use one table at once", "statement": "When any number of goroutines call Compute at the same time, on one table or on tables that share numbers as they please, then under every interleaving of single reads and writes no two of all these goroutines are about to access the same number with one of them writing it, no number that was there before any call changes, and all calls return, each with a number of its own that holds its own g^x mod n.", "quantifier": "every list of calls, every table NewTable builds, every positive x that fits, every number of routines from one on, every sharing of numbers between calls, every moment a call begins, every schedule of single reads and writes", "why_tests_cant": "the tests call Compute from one goroutine at a time; a table is built once to be shared, and whether that is safe depends on every interleaving of all workers and collectors of all calls", "anchors": ["precompute/precompute.go:37-77", "precompute/precompute.go:85-101"]}
