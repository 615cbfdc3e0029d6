{
 "claims": [
  {
   "property": "C01",
   "status": "proved",
   "theorems": [
    "C01_set_products"
   ],
   "note": "All four set product functions; slices of every length, any integers."
  },
  {
   "property": "C02",
   "status": "proved",
   "theorems": [
    "C02_set_product_parallel"
   ],
   "note": "Goroutine-tree model; every schedule, every limit."
  },
  {
   "property": "C03",
   "status": "proved",
   "theorems": [
    "C03_prove_membership"
   ],
   "note": "multiexp library calls are modelled as exact modular exponentiation."
  },
  {
   "property": "C04",
   "status": "proved",
   "theorems": [
    "C04_witnesses_verify"
   ],
   "note": ""
  },
  {
   "property": "C05",
   "status": "proved",
   "theorems": [
    "C05_iter_agrees"
   ],
   "note": "Termination included: the fuel of the model never runs out."
  },
  {
   "property": "C06",
   "status": "proved",
   "theorems": [
    "C06_iter_frame"
   ],
   "note": "Explicit memory model with in-place Exp and aliasing of inputs allowed; representatives not negative, a number is one cell. C123 follows the words of the numbers, where negative representatives break the claim."
  },
  {
   "property": "C07",
   "status": "proved",
   "theorems": [
    "C07_parallel"
   ],
   "note": ""
  },
  {
   "property": "C08",
   "status": "proved",
   "theorems": [
    "C08_parallel_with_table"
   ],
   "note": "The table is assumed valid for (base,N), as the API demands."
  },
  {
   "property": "C09",
   "status": "proved",
   "theorems": [
    "C09_randomizer"
   ],
   "note": ""
  },
  {
   "property": "C10",
   "status": "partial",
   "theorems": [
    "C10_randomizer_any_limit_refuted",
    "C10_randomizer_partial"
   ],
   "note": "Refuted: for limit > 0 the code ignores the randomizer. The partial theorem gives the exact behaviour for every limit."
  },
  {
   "property": "C11",
   "status": "proved",
   "theorems": [
    "C11_iter_parallel",
    "C11_goroutines"
   ],
   "note": "Step machine of the initialisation goroutines, workers with their helpers, caller and collector; all schedules, no bound."
  },
  {
   "property": "C12",
   "status": "proved",
   "theorems": [
    "C12_worker_count"
   ],
   "note": "Natural numbers; the int range is not reached by any CPU count."
  },
  {
   "property": "C13",
   "status": "proved",
   "theorems": [
    "C13_entry_points"
   ],
   "note": "Strings, both encodings, all schedules of the parallel versions."
  },
  {
   "property": "C14",
   "status": "proved",
   "theorems": [
    "C14_order_independent"
   ],
   "note": ""
  },
  {
   "property": "C15",
   "status": "proved",
   "theorems": [
    "C15_incremental"
   ],
   "note": ""
  },
  {
   "property": "C16",
   "status": "proved",
   "theorems": [
    "C16_zk_accumulate",
    "C16_ZKAccumulate_strings"
   ],
   "note": "The randomizer is an arbitrary non-negative integer; C16_ZKAccumulate_strings is the exported function on strings."
  },
  {
   "property": "C17",
   "status": "proved",
   "theorems": [
    "C17_division_intractable"
   ],
   "note": "For every function into the field."
  },
  {
   "property": "C18",
   "status": "proved",
   "theorems": [
    "C18_representatives"
   ],
   "note": ""
  },
  {
   "property": "C19",
   "status": "proved",
   "theorems": [
    "C19_hash_to_prime"
   ],
   "note": "Unbounded loop modelled with fuel; completeness for every n included."
  },
  {
   "property": "C20",
   "status": "proved",
   "theorems": [
    "C20_universal_hash"
   ],
   "note": "For the published constants."
  },
  {
   "property": "C21",
   "status": "partial",
   "theorems": [
    "C21_SimpleExp_refuted",
    "C21_SimpleExp_2_64",
    "C21_SimpleExp_partial"
   ],
   "note": "Refuted: exponent 2^64 is taken for 0. What holds (always returns, exact law up to 4160 bits, correct up to 64 bits) is C21_SimpleExp_partial."
  },
  {
   "property": "C22",
   "status": "partial",
   "theorems": [
    "C22_GCB_refuted",
    "C22_GCB_same_pointer_refuted",
    "C22_GCB_partial"
   ],
   "note": "Refuted: bits 32..63 of each word are ignored and an argument reduced to 0 is left denormalised. The exact law is C22_GCB_partial."
  },
  {
   "property": "C23",
   "status": "proved",
   "theorems": [
    "C23_bench_set"
   ],
   "note": ""
  },
  {
   "property": "C24",
   "status": "proved",
   "theorems": [
    "C24_trusted_setup"
   ],
   "note": "The single published setup, parsed from the decimal constants."
  },
  {
   "property": "C25",
   "status": "proved",
   "theorems": [
    "C25_function_of_history",
    "C25_init_copies"
   ],
   "note": "The copy claim is proved on a heap model of slices with an arbitrary growth policy."
  },
  {
   "property": "C26",
   "status": "partial",
   "theorems": [
    "C26_int_challenge_bound_refuted",
    "C26_prime_challenge_bound_partial"
   ],
   "note": "Prime challenges: proved. Integer challenges: refuted, the value 2^239 itself is not reduced; the partial theorem gives the exact bound."
  },
  {
   "property": "C27",
   "status": "partial",
   "theorems": [
    "C27_transcript_injective_refuted",
    "C27_transcript_injective_partial"
   ],
   "note": "Refuted for every hash function; true for lists with equal string lengths."
  },
  {
   "property": "C28",
   "status": "proved",
   "theorems": [
    "C28_GenPreTable"
   ],
   "note": ""
  },
  {
   "property": "C29",
   "status": "proved",
   "theorems": [
    "C29_ComputeFromTable"
   ],
   "note": ""
  },
  {
   "property": "C30",
   "status": "proved",
   "theorems": [
    "C30_ComputeFromTableParallel",
    "C30_no_send_on_closed",
    "C30_refused"
   ],
   "note": ""
  },
  {
   "property": "C31",
   "status": "proved",
   "theorems": [
    "C31_Table_Compute"
   ],
   "note": ""
  },
  {
   "property": "C32",
   "status": "partial",
   "theorems": [
    "C32_table_covers_refuted",
    "C32_table_covers_partial",
    "C32_exact"
   ],
   "note": "Refuted: the number of chunks is rounded down. Holds when the chunk size divides the bit length. C32_exact: holds exactly if the greatest product fits the rounded number of chunks."
  },
  {
   "property": "C33",
   "status": "partial",
   "theorems": [
    "C33_Compute_returns_refuted",
    "C33_zero_hangs",
    "C33_no_workers",
    "C33_Compute_returns_partial",
    "C33_exact"
   ],
   "note": "Refuted for x = 0. Holds for every positive covered exponent. C33_exact: what happens for every exponent and every number of workers (hang, crash or g^|x| mod n)."
  },
  {
   "property": "C34",
   "status": "proved",
   "theorems": [
    "C34_PoKEStar_complete",
    "C34_nonunit_refuted"
   ],
   "note": "For G sharing a factor with N and x negative no power exists and the prover issues a proof for C = 0 (C34_nonunit_refuted)."
  },
  {
   "property": "C35",
   "status": "proved",
   "theorems": [
    "C35_PoE_complete"
   ],
   "note": ""
  },
  {
   "property": "C36",
   "status": "proved",
   "theorems": [
    "C36_ZKPoKE_complete"
   ],
   "note": ""
  },
  {
   "property": "C37",
   "status": "partial",
   "theorems": [
    "C37_PoE_soundness_refuted",
    "C37_PoE_forgery",
    "C37_PoE_soundness_partial"
   ],
   "note": "Refuted: the negated result has an accepted proof, for every hash. What acceptance implies (an l-th root) is C37_PoE_soundness_partial."
  },
  {
   "property": "C38",
   "status": "partial",
   "theorems": [
    "C38_PoKE_membership_refuted",
    "C38_ZKPoKE_membership_refuted",
    "C38_PoKE_forgery",
    "C38_ZKPoKE_forgery",
    "C38_PoKE_membership_partial",
    "C38_ZKPoKE_membership_partial",
    "C38_ZKPoKE_extract"
   ],
   "note": "Refuted: N-1 is accepted by both verifiers for every hash. What acceptance implies is C38_PoKE_membership_partial and C38_ZKPoKE_membership_partial; two accepted zero-knowledge proofs with one first message and different challenges pin the base to a power up to the challenge difference (C38_ZKPoKE_extract)."
  },
  {
   "property": "C39",
   "status": "proved",
   "theorems": [
    "C39_verifiers_answer"
   ],
   "note": ""
  },
  {
   "property": "C40",
   "status": "proved",
   "theorems": [
    "C40_NewInt3",
    "C40_NewInt4"
   ],
   "note": ""
  },
  {
   "property": "C41",
   "status": "proved",
   "theorems": [
    "C41_ThreeSquares_correct"
   ],
   "note": ""
  },
  {
   "property": "C42",
   "status": "partial",
   "theorems": [
    "C42_ThreeSquares_returns_refuted",
    "C42_result_lost_refuted",
    "C42_candidate_2",
    "C42_hangs_25",
    "C42_hangs_1",
    "C42_one_cpu",
    "C42_lost_result",
    "C42_lost_result_8",
    "C42_ThreeSquares_returns_partial",
    "C42_prime_candidate"
   ],
   "note": "Refuted: n = 1 and n = 25 never return; n = (2m)^2+1 never returns on one CPU; the result can be lost. The exact set of returnable values is C42_ThreeSquares_returns_partial; a goroutine that gets to a prime candidate can return its decomposition (C42_prime_candidate)."
  },
  {
   "property": "C43",
   "status": "proved",
   "theorems": [
    "C43_AoP_complete"
   ],
   "note": "Every hash function, invertible G and H, x, r, coins; three-square results are those the search machine can return; the prover also returns."
  },
  {
   "property": "C44",
   "status": "partial",
   "theorems": [
    "C44_AoP_sound_refuted",
    "C44_AoP_forgery",
    "C44_AoP_sound_partial",
    "C44_AoP_equations",
    "C44_AoP_special_sound_partial"
   ],
   "note": "Refuted: the challenge does not hash the first message, so every invertible commitment has an accepted argument (for every hash function); witness: c = 2 modulo 15 with G = H = 4, a commitment to no integer. Partial: acceptance is exactly the verifier equations (C44_AoP_equations), and two accepted arguments that share the first message yield an opening under the binding assumptions named in C44_AoP_special_sound_partial."
  },
  {
   "property": "C45",
   "status": "proved",
   "theorems": [
    "C45_RP_complete"
   ],
   "note": "Every hash function, invertible G and H, range, x in it, r, coins; the prover also returns."
  },
  {
   "property": "C46",
   "status": "partial",
   "theorems": [
    "C46_RP_sound_refuted",
    "C46_RP_forgery",
    "C46_RP_sound_partial",
    "C46_RP_equations",
    "C46_RP_special_sound_partial"
   ],
   "note": "Refuted: for every hash function, every range (also empty) and every invertible c there is an accepted proof. Partial: acceptance is exactly the verifier equations (C46_RP_equations), and two accepted proofs that share the first message yield an opening in range under the binding assumptions named in C46_RP_special_sound_partial."
  },
  {
   "property": "C47",
   "status": "partial",
   "theorems": [
    "C47_RP_reusable",
    "C47_AoP_reusable_partial",
    "C47_AoP_stale_refuted"
   ],
   "note": "Holds for the range verifier, and for the positivity verifier when H is invertible modulo N; refuted for the positivity verifier with other H (a recycled integer enters the verdict)."
  },
  {
   "property": "C48",
   "status": "partial",
   "theorems": [
    "C48_verifiers_answer_refuted",
    "C48_AoP_crash",
    "C48_RP_crash",
    "C48_verifiers_answer_partial",
    "C48_AoP_exact",
    "C48_RP_exact"
   ],
   "note": "Refuted: a component without inverse modulo N makes both verifiers crash. Partial: with invertible components they always answer. The exact theorems say for every proof whether it is answered or crashes the verifier."
  },
  {
   "property": "C49",
   "status": "partial",
   "theorems": [
    "C49_AoP_refuses",
    "C49_RP_refuses_partial",
    "C49_RP_refuses_refuted",
    "C49_RP_inverted"
   ],
   "note": "Holds for the positivity prover and for ranges with a <= b; refuted for inverted ranges b < x < a, for which the prover outputs an accepted proof."
  },
  {
   "property": "C50",
   "status": "partial",
   "theorems": [
    "C50_pooled_commitment_refuted",
    "C50_pooled_any_value",
    "C50_consequence",
    "C50_unpooled_commitment",
    "C50_pooled_commitment_partial"
   ],
   "note": "Refuted: secondPartH returns a pointer already put back into the pool; some interleaving makes the prover hash any other value, and the verifier then rejects. Partial: correct when no other goroutine takes from the pool before the read; the positivity prover (not pooled) is always correct."
  },
  {
   "property": "C51",
   "status": "proved",
   "theorems": [
    "C51_is_valid"
   ],
   "note": "IsValid is exactly the shape check, AssignCircuit panics exactly otherwise and copies the set."
  },
  {
   "property": "C52",
   "status": "proved",
   "theorems": [
    "C52_integrity",
    "circuit_meaning"
   ],
   "note": "No assumption on MulModP. circuit_meaning is the exact meaning of the whole circuit."
  },
  {
   "property": "C53",
   "status": "partial",
   "theorems": [
    "C53_sum_refuted",
    "C53_sum_wrong",
    "C53_sum_partial",
    "C53_circuit_law"
   ],
   "note": "Refuted: the change of the first user is counted twice (loop starts from the balances of index 0 already added). The law actually enforced is C53_circuit_law; with an unchanged first balance the claim holds."
  },
  {
   "property": "C54",
   "status": "partial",
   "theorems": [
    "C54_remainders_refuted",
    "C54_remainders_partial"
   ],
   "note": "Refuted when leaf + delta wraps around the field; exact otherwise. The exact value in all cases is also proved."
  },
  {
   "property": "C55",
   "status": "partial",
   "theorems": [
    "C55_honest_refuted",
    "C55_honest_partial"
   ],
   "note": "Refuted by a wrapping leaf; holds whenever no leaf wraps. MulModP assumed to accept the canonical remainder."
  },
  {
   "property": "C56",
   "status": "partial",
   "theorems": [
    "C56_challenges_refuted",
    "C56_challenges_ignored",
    "C56_challenges_partial"
   ],
   "note": "Refuted: SetupTranscript ignores the accumulators. Generator, modulus and epoch are bound."
  },
  {
   "property": "C57",
   "status": "proved",
   "theorems": [
    "C57_public_witness",
    "C57_whole_witness"
   ],
   "note": ""
  },
  {
   "property": "C58",
   "status": "partial",
   "theorems": [
    "C58_contract_order_refuted",
    "C58_contract_order_partial"
   ],
   "note": "Refuted: the printed vector puts the epoch and deltas before the remainders. gnark's use of declaration order is modelled, not proved; the repository's own Solidity test uses that order."
  },
  {
   "property": "C59",
   "status": "proved",
   "theorems": [
    "C59_merkle"
   ],
   "note": "Sizes up to 2^32 (the parameter is a uint32)."
  },
  {
   "property": "C60",
   "status": "proved",
   "theorems": [
    "C60_file_names",
    "C60_families"
   ],
   "note": ""
  },
  {
   "property": "C61",
   "status": "partial",
   "theorems": [
    "C61_sieve_refuted",
    "C61_sieve_partial"
   ],
   "note": "Refuted: testRemainder returns true in both branches, so the sieve never rejects."
  },
  {
   "property": "C62",
   "status": "proved",
   "theorems": [
    "C62_order",
    "C62_search"
   ],
   "note": "Every stream of draws; the search returns the first suitable draw. The primality test is a parameter."
  },
  {
   "property": "C63",
   "status": "proved",
   "theorems": [
    "C63_canonical",
    "C63_no_aliases"
   ],
   "note": "Every verifying key, every behaviour of the precompiled contracts."
  },
  {
   "property": "C64",
   "status": "partial",
   "theorems": [
    "C64_id_range_refuted",
    "C64_id_range_partial"
   ],
   "note": "Refuted: the range check of the last identifier is commented out."
  },
  {
   "property": "C65",
   "status": "proved",
   "theorems": [
    "C65_group",
    "C65_size",
    "C65_equal_primes_refuted"
   ],
   "note": "Premises: the primality test and the Jacobi symbol are exact, the prime draws are distinct. Nothing in the code excludes equal primes (C65_equal_primes_refuted)."
  },
  {
   "property": "C66",
   "status": "proved",
   "theorems": [
    "C66_keys"
   ],
   "note": "Computed in the kernel's VM; membership of the G2 points in the subgroup of order r is not checked."
  },
  {
   "property": "C67",
   "status": "proved",
   "theorems": [
    "C67_groth16"
   ],
   "note": "The groups and the precompiled contracts are parameters with the laws of EIP-196/197 as premises, shown consistent by an instance."
  },
  {
   "property": "C68",
   "status": "proved",
   "theorems": [
    "C68_false_witness_root",
    "C68_nonmember_root"
   ],
   "note": "Reduction: the extractor is an explicit function; that no such root can be found is the (unmodelled) strong RSA assumption."
  },
  {
   "property": "C69",
   "status": "proved",
   "theorems": [
    "C69_binding"
   ],
   "note": "Prime representatives with a sound primality test; the remaining alternative exhibits a multiple of the order of g."
  },
  {
   "property": "C70",
   "status": "proved",
   "theorems": [
    "C70_hiding"
   ],
   "note": "Counts over the range of GenRandomizer; crypto/rand is taken as uniform by the reader of the count."
  },
  {
   "property": "C71",
   "status": "partial",
   "theorems": [
    "C71_reduced_remainder_refuted",
    "C71_unreduced_accepted",
    "C71_reduced_remainder_partial"
   ],
   "note": "Refuted: PoKEStarVerify does not check 0 <= r < l; for every true statement the exponent itself passes as remainder. Honest proofs have reduced remainders."
  },
  {
   "property": "C72",
   "status": "proved",
   "theorems": [
    "C72_TestPoKE"
   ],
   "note": "The primality test may be anything that accepts only positive numbers."
  },
  {
   "property": "C73",
   "status": "partial",
   "theorems": [
    "C73_notus_multiswap_refuted",
    "C73_notus_multiswap_partial",
    "C73_no_panic",
    "C73_PoKE"
   ],
   "note": "Refuted: accMid is computed from the same product as accOri, so it still contains the old entries; accOld differs from accOri, the PoKE statement is false and the membership proofs do not verify against accNew. The other parts hold (partial)."
  },
  {
   "property": "C74",
   "status": "partial",
   "theorems": [
    "C74_notus_parallel_refuted",
    "C74_notus_parallel_partial"
   ],
   "note": "Refuted: line 662 multiplies removeSet instead of insertSet, and limit 5 drops the randomizer."
  },
  {
   "property": "C75",
   "status": "proved",
   "theorems": [
    "C75_di_range",
    "C75_negative"
   ],
   "note": "Premise: Poseidon values are below the field order."
  },
  {
   "property": "C76",
   "status": "partial",
   "theorems": [
    "C76_table_capacity_refuted",
    "C76_table_capacity_partial"
   ],
   "note": "Refuted for 4 elements with 1025 bits per element, and for 2^21 elements in the Notus experiments (uint32 overflow gives an empty table). Holds from 8 elements on, respectively below 2^21."
  },
  {
   "property": "C77",
   "status": "partial",
   "theorems": [
    "C77_PoE_binding_refuted",
    "C77_ZKPoKE_binding_refuted",
    "C77_AoP_RP_separation_refuted",
    "C77_RP_binding_refuted",
    "C77_AoP_binding_partial",
    "C77_RP_binding_partial",
    "C77_PoKEStar_binding_partial",
    "C77_PoE_binding_partial",
    "C77_ZKPoKE_binding_partial",
    "C77_labels_separate",
    "C77_statement_label",
    "C77_second_challenge"
   ],
   "note": "Refuted: decimals are concatenated without separators, so (C,x)=(25,2), true, and (2,52), false, share every challenge (base 5 mod 77); likewise ZKPoKE, and a positivity argument can share its challenge with a range proof. Partial: every transcript binds group and statement when the digit counts agree; the labels of the three exponent proofs separate them."
  },
  {
   "property": "C78",
   "status": "proved",
   "theorems": [
    "C78_Int",
    "C78_Int_uniform",
    "C78_Int_rarely_fails",
    "C78_GenRandomizer",
    "C78_universal_hash",
    "C78_coins",
    "C78_AoP_coins",
    "C78_RP_coins",
    "C78_ZKPoKE_coins"
   ],
   "note": "Counted over all byte strings of every length delivered by the source. The prime draws (crand.Prime) are not part of it."
  },
  {
   "property": "C79",
   "status": "partial",
   "theorems": [
    "C79_AoP_t_refuted",
    "C79_AoP_T_refuted",
    "C79_RP_t_refuted",
    "C79_AoP_z_hides_partial",
    "C79_AoP_z_distance",
    "C79_RP_z_hides_partial",
    "C79_RP_z_distance",
    "C79_AoP_t_hides_partial",
    "C79_AoP_T_distance",
    "C79_RP_t_hides_partial",
    "C79_RP_TAU_distance"
   ],
   "note": "Refuted for the t part: the challenge is a whole 256-bit digest while the mask has only 256 bits beyond N, so some digest makes t0 reveal r0 = 0 from r0 = N on all but N of the coins. Likewise t0 of the range proof, and T of the positivity proof for x = 2^4095. Partial: the z parts, jointly, for x < 2^4096 and ranges narrower than 2^3965; T for x < 2^3834, tau for ranges narrower than 2^3965; for the t parts and for T and tau the distance itself, which some test attains."
  },
  {
   "property": "C80",
   "status": "partial",
   "theorems": [
    "C80_ZKPoKE_response",
    "C80_remainder_hides",
    "C80_remainder_distance",
    "C80_pair_hides_refuted",
    "C80_pair_hides_partial",
    "C80_pair_distance"
   ],
   "note": "The remainders: proved. The pair with the quotient power: refuted; with a 2048-bit modulus (3^1292), base 2 and a 238-bit prime challenge some test separates two exponents with probability 2^-19. Partial: never on more than l*ord(u) of the N*2^254 coins; the exact distance is C80_pair_distance."
  },
  {
   "property": "C81",
   "status": "partial",
   "theorems": [
    "C81_goroutines_stop_refuted",
    "C81_spins",
    "C81_goroutines_stop_partial"
   ],
   "note": "Refuted: a goroutine whose candidate has a prime factor 3 mod 4 (candidates below 8192 are not tested for primality) spins for ever, also after the call returned 217 = 12^2 + 8^2 + 3^2. Partial: all other goroutines end, the ones with a prime candidate with suitable draws."
  },
  {
   "property": "C82",
   "status": "partial",
   "theorems": [
    "C82_argument_private_refuted",
    "C82_late_reader",
    "C82_same_values",
    "C82_argument_private_partial"
   ],
   "note": "Refuted: on two or more CPUs every returning call can leave a goroutine about to read the recycled number. Partial: the value returned is not affected."
  },
  {
   "property": "C83",
   "status": "proved",
   "theorems": [
    "C83_prove_verify",
    "C83_tests",
    "C83_layout"
   ],
   "note": "For any ideal Groth16 scheme; key files as a map from names to contents."
  },
  {
   "property": "C84",
   "status": "partial",
   "theorems": [
    "C84_prove_errors_refuted",
    "C84_prove_errors_partial"
   ],
   "note": "Refuted: IgnoreSolverError makes Prove return a proof for violating inputs. Partial: exactly when it reports an error or panics; Verify never accepts such a proof."
  },
  {
   "property": "C85",
   "status": "partial",
   "theorems": [
    "C85_verify_answers_refuted",
    "C85_verify_answers_partial"
   ],
   "note": "Refuted: without keys for the size Verify panics. Partial: exactly then."
  },
  {
   "property": "C86",
   "status": "partial",
   "theorems": [
    "C86_contract_refuted",
    "C86_contract_wrong_key",
    "C86_contract_partial"
   ],
   "note": "Refuted for TestMultiSwapAndOutputSmartContract2: the contract carries the key of a second setup, so it never accepts the printed proof. Partial: TestMultiSwapAndOutputSmartContract exports the key Verify uses."
  },
  {
   "property": "C87",
   "status": "proved",
   "theorems": [
    "C87_accepted_swap"
   ],
   "note": "For any ideal (knowledge-sound) Groth16 scheme."
  },
  {
   "property": "C88",
   "status": "proved",
   "theorems": [
    "C88_aop_call",
    "C88_aop_session"
   ],
   "note": "Statement-by-statement program over pointers; other goroutines are arbitrary as long as they write only to numbers they hold."
  },
  {
   "property": "C89",
   "status": "partial",
   "theorems": [
    "C89_rp_concurrent_refuted",
    "C89_rp_call",
    "C89_rp_session_partial"
   ],
   "note": "Refuted next to other users of the pool: the hashed commitment value is read after it was put back (cf. C50). Proved when nobody else uses the pool during the call."
  },
  {
   "property": "C90",
   "status": "proved",
   "theorems": [
    "C90_aop_verify",
    "C90_rp_verify"
   ],
   "note": "Includes the case where the positivity verifier reads the old content of a borrowed number (zkaop.go:395)."
  },
  {
   "property": "C91",
   "status": "partial",
   "theorems": [
    "C91_basic_zkrsa_refuted",
    "C91_basic_zkrsa_partial",
    "C91_three_cpus"
   ],
   "note": "Refuted: on machines with at most three CPUs no run of the search finds the squares of 401, so the driver never returns. Proved: with at least four CPUs a run of the search can return; whenever it does (and a base coprime to N is drawn, and the challenge search ends) the driver returns the randomised accumulator with both verifications passed, and it never panics."
  },
  {
   "property": "C92",
   "status": "partial",
   "theorems": [
    "C92_positivity_refuted",
    "C92_positivity_partial",
    "C92_counts",
    "C92_never"
   ],
   "note": "Refuted: for x = 0, 6, 42, 72, ... (twelve values below 2048) no run on any machine finds the squares, although they exist; so no positivity argument for them and no range proof for an end point. Proved: exactly which values below 2048 can be found with at least 37 CPUs, and how many cannot on machines of usual sizes."
  },
  {
   "property": "C93",
   "status": "partial",
   "theorems": [
    "C93_precompute_refuted",
    "C93_precompute_partial",
    "C93_membership_verify",
    "C93_grouping",
    "C93_group_sizes",
    "C93_benches",
    "C93_products",
    "C93_first_layer"
   ],
   "note": "Refuted: with a positive limit the parallel driver drops the randomizer, so its proofs do not verify against the randomised accumulator. Proved: what each driver returns for every size (sizes below 4 panic), how many users the grouping serves, that all ManualBench variants agree, and that TestProduct prints length 0 while the other two print 1023n+1."
  },
  {
   "property": "C94",
   "status": "proved",
   "theorems": [
    "C94_menu",
    "C94_menu_sizes",
    "C94_sessions"
   ],
   "note": "Premises: completeness and soundness of Groth16, and that the goroutine prover gives one of the results its goroutines can produce. A run that does not end is possible only if a search for a prime does not end."
  },
  {
   "property": "C95",
   "status": "partial",
   "theorems": [
    "C95_lost_refuted",
    "C95_lost_partial",
    "C95_stays_stuck",
    "C95_repair"
   ],
   "note": "Refuted: only the circuit file is looked for, so with the circuit there and a key missing the test panics, and does so for ever whatever else is run. Proved: exactly in which directories a test works; that the state persists until the circuit file is lost too or the keys are set up anew; that deleting all files of a size or none is safe."
  },
  {
   "property": "C96",
   "status": "proved",
   "theorems": [
    "C96_bytecode",
    "C96_same_source",
    "C96_yes",
    "C96_deploy"
   ],
   "note": "The machine is modelled without gas: running out of gas is not considered. The three elliptic curve precompiles are arbitrary functions from words to words (or failure); the selector and the revert data are computed with a model of Keccak-256."
  },
  {
   "property": "C97",
   "status": "proved",
   "theorems": [
    "C97_bytes",
    "C97_call",
    "C97_unique",
    "C97_test",
    "C97_made"
   ],
   "note": "For any groups with a bilinear pairing in which every IC point of the deployed key tells scalars below the order apart. The layout of WriteRawTo and of ABI packing is modelled from documentation."
  },
  {
   "property": "C98",
   "status": "partial",
   "theorems": [
    "C98_agree_refuted",
    "C98_agree_partial"
   ],
   "note": "Refuted: the program reduces the public values into the field and accepts, the contract fails on a value that is not reduced. For reduced values they agree; the contract fails on all others."
  },
  {
   "property": "C99",
   "status": "proved",
   "theorems": [
    "C99_setup",
    "C99_accumulate",
    "C99_parallel",
    "C99_product",
    "C99_GCB",
    "C99_table"
   ],
   "note": "The tests are modelled as lists of reported errors; the concurrent ones for every schedule of the goroutine models. Assumed: the prime search ends on the sets drawn (found); Poseidon values are in the field."
  },
  {
   "property": "C100",
   "status": "partial",
   "theorems": [
    "C100_simple_exp_refuted",
    "C100_simple_exp_partial",
    "C100_count"
   ],
   "note": "Refuted by g = 1. The partial theorem says exactly which draws pass; the others panic. C100_count counts them."
  },
  {
   "property": "C101",
   "status": "partial",
   "theorems": [
    "C101_transcript",
    "C101_length",
    "C101_challenge_refuted",
    "C101_challenge_partial"
   ],
   "note": "All but TestChallenge proved. TestChallenge is refuted by a constant hash; the partial theorem gives its result exactly."
  },
  {
   "property": "C102",
   "status": "partial",
   "theorems": [
    "C102_public_witness",
    "C102_solving_partial",
    "C102_fail_refuted",
    "C102_fail_partial"
   ],
   "note": "TestPublicWitness and six of the seven fail cases proved. The range case is refuted (constant Poseidon); the partial theorem shows it meets every range and sum constraint and gives the exact condition of its refusal. TestZkMultiSwap holds unless a leaf wraps around the field (see C55)."
  },
  {
   "property": "C103",
   "status": "partial",
   "theorems": [
    "C103_contract_test_refuted",
    "C103_contract_test_partial",
    "C103_generate",
    "C103_fails"
   ],
   "note": "Refuted: a clone has no key files and fails; running main.go alone replaces the keys but not the binding. The partial theorem gives the exact condition after any commands; go generate always repairs the directory (C103_generate). Groth16 is an ideal scheme, and the contract of a key answers as groth16.Verify does (C96-C98)."
  },
  {
   "property": "C104",
   "status": "partial",
   "theorems": [
    "C104_sums_refuted",
    "C104_sums_partial",
    "C104_some_sums",
    "C104_verifier"
   ],
   "note": "Refuted: the sums are private and unhashed. The partial theorem is exact: the pairs of 32-bit sums with the same difference. C104_verifier carries it to Prove and Verify over an ideal Groth16 scheme."
  },
  {
   "property": "C105",
   "status": "proved",
   "theorems": [
    "C105_history",
    "C105_unique"
   ],
   "note": "Poseidon is any function; a collision is not excluded but named, as two different 4-tuples taken from the chain."
  },
  {
   "property": "C106",
   "status": "partial",
   "theorems": [
    "C106_ledger_refuted",
    "C106_ledger_partial",
    "C106_ledger_kept"
   ],
   "note": "Refuted: the first user's change is counted twice (C53). The partial theorem gives the exact drift after any number of swaps."
  },
  {
   "property": "C107",
   "status": "partial",
   "theorems": [
    "C107_mul_refuted",
    "C107_mul_partial",
    "C107_new",
    "C107_mul_own",
    "C107_mul_panics"
   ],
   "note": "Refuted for a cell given twice and for a factor that is an entry. The partial theorem gives every cell after Mul and the exact condition under which all four numbers are multiplied by n; C107_mul_own treats the factor among the entries. C107_new is the full statement for NewInt4 and NewInt3 and ties the cells to the value model of C40."
  },
  {
   "property": "C108",
   "status": "partial",
   "theorems": [
    "C108_undo_refuted",
    "C108_undo_partial",
    "C108_div",
    "C108_div_panics"
   ],
   "note": "Refuted for a divisor that is an entry; the partial theorem covers every other non-zero divisor, also with shared cells."
  },
  {
   "property": "C109",
   "status": "proved",
   "theorems": [
    "C109_printed"
   ],
   "note": "big.Int.String is the decimal representation of GoBig.v, <nil> for nil."
  },
  {
   "property": "C110",
   "status": "partial",
   "theorems": [
    "C110_parameters_refuted",
    "C110_parameters_partial",
    "C110_prime"
   ],
   "note": "Refuted: A = 0 can be drawn. The partial theorem gives the exact condition (A <> 0) and the frequency of A = 0. ProbablyPrime is an oracle that accepts only primes among the draws; crand.Prime is a list of draws."
  },
  {
   "property": "C111",
   "status": "partial",
   "theorems": [
    "C111_product_refuted",
    "C111_product_partial",
    "C111_membership",
    "C111_exact",
    "C111_workers"
   ],
   "note": "Refuted for SetProductParallel with a negative limit, where the number of goroutines grows with the set; the partial theorem covers every non-negative limit. C111_membership is the full bound for the four ProveMembership functions, C111_exact the exact count for large sets, C111_workers shows that AccAndProveParallel passes the number of workers as the limit."
  },
  {
   "property": "C112",
   "status": "proved",
   "theorems": [
    "C112_table",
    "C112_pretable",
    "C112_iter",
    "C112_zero"
   ],
   "note": "An ended state is one in which the call has returned and all goroutines are past their last statement; the theorems also say that nothing can move in it. C112_zero is the case of exponent 0 (see C33). In the fork-join functions every goroutine is received from by its parent before the parent goes on, by the form of the model (ForkJoin.v)."
  },
  {
   "property": "C113",
   "status": "proved",
   "theorems": [
    "C113_membership",
    "C113_randomizer",
    "C113_parallel",
    "C113_lower"
   ],
   "note": "Counts are of the operations the program issues; the savings inside the external multiexp package are not counted. The record of operations is proved to change no outcome."
  },
  {
   "property": "C114",
   "status": "partial",
   "theorems": [
    "C114_products_refuted",
    "C114_products_partial"
   ],
   "note": "Refuted: the products of every half and quarter are computed from the elements again on every level, so their bits grow as b n log2(n)^2 (C113_lower gives the matching bound from below). The partial theorem bounds them by b n (log2(n)^2 + 4 log2(n)) / 2."
  },
  {
   "property": "C115",
   "status": "proved",
   "theorems": [
    "C115_chain",
    "C115_speedup"
   ],
   "note": "The chain is the longest path through the goroutine tree, counted in exponent bits of the operations the program issues; what the external multiexp package shares or divides inside one call is not counted."
  },
  {
   "property": "C116",
   "status": "proved",
   "theorems": [
    "C116_iter",
    "C116_cheaper",
    "C116_parallel"
   ],
   "note": "Int.Exp is counted once per call; what the external multiexp package shares between the exponents of one ProveMembership call is not counted in C116_cheaper."
  },
  {
   "property": "C117",
   "status": "partial",
   "theorems": [
    "C117_calls_refuted",
    "C117_calls_partial",
    "C117_driver",
    "C117_fatal_refuted",
    "C117_fatal_partial"
   ],
   "note": "Refuted: BenchmarkExp, DoubleExp, FourfoldExp, SimpleExp and GCB do not make b.N calls, and a failing draw other than the last one crashes in place of b.Fatal. The partial theorem states what every benchmark does for every b.N; the driver theorem what the testing package then reports."
  },
  {
   "property": "C118",
   "status": "partial",
   "theorems": [
    "C118_table_size_refuted",
    "C118_table_size_partial"
   ],
   "note": "Refuted: an element is printed as 64 bits, but the first one already has more than 2000. The partial theorem: rows and columns are right, and the printed bytes are a lower bound of the size of the table, off by at most the number of words of the modulus."
  },
  {
   "property": "C119",
   "status": "partial",
   "theorems": [
    "C119_GenerateG_refuted",
    "C119_GenerateG_partial",
    "C119_PoseidonWith2Inputs"
   ],
   "note": "Refuted only for the warning: a hash that is zero makes the product zero, and the warning claims a factor that has not been found. Otherwise as stated (C119_GenerateG_partial); PoseidonWith2Inputs is proved."
  },
  {
   "property": "C120",
   "status": "proved",
   "theorems": [
    "C120_deploy",
    "C120_address",
    "C120_refuses"
   ],
   "note": "The machine of EvmModel with the three further instructions the library uses."
  },
  {
   "property": "C121",
   "status": "proved",
   "theorems": [
    "C121_products",
    "C121_membership",
    "C121_entry_points"
   ],
   "note": "bigfft.Mul and multiexp.DoubleExp/FourfoldExp are taken to return new numbers; a cell is a whole number, not its words. ProveMembershipIter is C06."
  },
  {
   "property": "C122",
   "status": "partial",
   "theorems": [
    "C122_table_refuted",
    "C122_table_partial",
    "C122_pretable"
   ],
   "note": "Refuted for Table: NewTable stores the caller's pointer to the modulus, so overwriting that number later makes Compute return a value that is right for neither modulus; C122_table_partial proves it when the modulus stays. Proved in full for PreTable. Memory does not change while a call runs."
  },
  {
   "property": "C123",
   "status": "partial",
   "theorems": [
    "C123_inputs_refuted",
    "C123_results_refuted",
    "C123_single",
    "C123_partial",
    "C123_AccAndProveIter_partial",
    "C123_parallel_small_partial"
   ],
   "note": "Refuted twice. With a negative representative Exp inverts the base first, its alias test then compares the wrong words and the result is written over the words of setup.G (base 3, modulus 7, set {2,-1}: the caller's 3 becomes 5). With one representative the returned number is the parameter itself, whose words are those of setup.G (C123_single: what is stored in it shows up there). Partial: with representatives that are not negative every number and every array is kept, and from two representatives on every result has words of its own."
  },
  {
   "property": "C124",
   "status": "partial",
   "theorems": [
    "C124_refuted",
    "C124_copies",
    "C124_shared"
   ],
   "note": "Refuted: the structs are copied, so each number shares its words with the original; C124_shared gives what the other side reads after a store in either direction. The values do agree (C124_copies)."
  },
  {
   "property": "C125",
   "status": "partial",
   "theorems": [
    "C125_refuted",
    "C125_exact",
    "C125_unseen",
    "C125_seen_partial"
   ],
   "note": "Refuted: the tests look only at the proofs at the fixed positions they name; a list that is wrong at any other position passes. C125_exact gives the exact set of outputs each test accepts; C125_seen_partial: a wrong accumulator and a wrong proof at a checked position are always noticed."
  },
  {
   "property": "C126",
   "status": "proved",
   "theorems": [
    "C126_no_race",
    "C126_writes",
    "C126_reads",
    "C126_footprint",
    "C126_result"
   ],
   "note": "C126_writes and C126_reads show that the lists of accesses in C126_no_race are complete. C126_result: every interleaving of single accesses ends, without a crash or a goroutine left waiting, with the witnesses."
  },
  {
   "property": "C127",
   "status": "proved",
   "theorems": [
    "C127_membership",
    "C127_refines",
    "C127_randomizer",
    "C127_gather",
    "C127_collector",
    "C127_two_sets"
   ],
   "note": "For every growth policy of the runtime. Examples show that spare capacity would let append overwrite and that the recorded accesses reveal a race. Goroutines are run one after the other with their accesses compared."
  },
  {
   "property": "C128",
   "status": "proved",
   "theorems": [
    "C128_parallel",
    "C128_randomizer",
    "C128_product",
    "C128_two_callers"
   ],
   "note": "For every schedule of single array accesses. Examples run three schedules with the same answer and show a racing program whose answer depends on the schedule."
  },
  {
   "property": "C129",
   "status": "proved",
   "theorems": [
    "C129_parallel",
    "C129_randomizer",
    "C129_product",
    "C129_two_callers"
   ],
   "note": "For every schedule of single reads and writes of numbers and slice cells. Examples run two schedules of a call whose base is also an element, and show the race of a goroutine that raises its base in place."
  },
  {
   "property": "C130",
   "status": "partial",
   "theorems": [
    "C130_own_history_partial",
    "C130_own_history_refuted",
    "C130_without_copies",
    "C130_spare_overwrites"
   ],
   "note": "Refuted for copies: Transcript keeps a slice, so a copy shares the array, and after SetupTranscript (three strings in room for four) a string appended to the copy replaces the one appended to the original (C130_spare_overwrites for every such slice). Proved for every program that only uses InitTranscript, as everywhere in /repo, and for every program in which a copied slice is full or one of the two is not used again."
  },
  {
   "property": "C131",
   "status": "proved",
   "theorems": [
    "C131_compute",
    "C131_caller_kept",
    "C131_no_race",
    "C131_private"
   ],
   "note": "Every read and write of a number is a step; the machine refines the one of C31. The example follows a schedule with both workers in the middle of an exponentiation while somebody else makes and changes a number."
  },
  {
   "property": "C132",
   "status": "proved",
   "theorems": [
    "C132_compute",
    "C132_caller_kept",
    "C132_no_race",
    "C132_private",
    "C132_refused"
   ],
   "note": "Every read and write of a number is a step; the machine refines the one of C30. The example follows a schedule with two goroutines in the middle of Exp and the caller in the middle of Mul."
  },
  {
   "property": "C133",
   "status": "proved",
   "theorems": [
    "C133_all_return",
    "C133_kept",
    "C133_no_race"
   ],
   "note": "any number of calls of ComputeFromTableParallel at once in one memory, sharing table rows, moduli and bases as they please, interleaved at single reads and writes, each call beginning at any moment. What a call does before its go statements is one step; the mutex is left out (only one goroutine of each call takes it)."
  },
  {
   "property": "C134",
   "status": "proved",
   "theorems": [
    "C134_text",
    "C134_determines",
    "C134_generated"
   ],
   "note": "PrintTable's text for every table; the numbers in a table are not nil, and writing to standard output does not fail. The text determines every table with as many positions as bases."
  },
  {
   "property": "C135",
   "status": "partial",
   "theorems": [
    "C135_print_refuted",
    "C135_print_partial"
   ],
   "note": "refuted: a string with a line break can look like the next line, and nothing is quoted. A transcript without line breaks is printed like no other."
  },
  {
   "property": "C136",
   "status": "proved",
   "theorems": [
    "C136_all_return",
    "C136_kept",
    "C136_no_race"
   ],
   "note": "Any number of calls, each with its workers and collector by single accesses; default branches of select may be taken any number of times (idle steps). Table and x as in C131."
  }
 ]
}