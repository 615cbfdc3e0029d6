(** Model of /repo/experiments: the computations of TestPoKE, PoKE, TestNotusMultiSwap and
    TestNotusParallel (finaltests.go) and of genDIMin, genDIMax, TestRange (integers.go), without timing
    and printing. Values that a test prints or keeps in a local variable are returned.

    Not modelled: compiling the circuit when its file is missing (isCircuitExist, SetupZkMultiswap), and
    the final Prove and Verify calls on the output of GenTestSet (Groth16).
    multiexp.ExpParallel with a table for (G, N) is G^e mod N, bigfft.Mul is multiplication. *)
From Coq Require Import ZArith Bool String List.
From Verif Require Import GoBig AccModel HashModel FSModel ForkJoin ParModel CircuitModel PokeModel.
Import ListNotations.
Open Scope Z_scope.

Section Experiments.
Variable sha : string -> string.
Variable is_prime : Z -> bool.
Variable poseidon : list Z -> Z.

(** ** finaltests.go:147-177 TestPoKE, one round of the loop for a set of [num] elements *)
Record poke_print := { pk_acc : Z; pk_Q : Z; pk_l : Z; pk_Ql : Z; pk_r : Z; pk_gr : Z; pk_prod : Z }.
Definition TestPoKE_round (fuel : nat) (setup : Setup) (num : Z) : outcome poke_print :=
  do set <- GenBenchSet num;
  do rep <- GenRepresentatives sha is_prime poseidon fuel set HashToPrimeFromSha256;
  do exp <- SetProductRecursiveFast rep;
  let accNew := AccumulateNew (sG setup) exp (sN setup) in
  do l <- HashToPrime sha is_prime fuel (dec (sG setup) ++ dec accNew)%string;
  do (quotient, remainder) <- div_mod exp l;
  let Q := AccumulateNew (sG setup) quotient (sN setup) in
  let AccTest1 := AccumulateNew Q l (sN setup) in
  let AccTest2 := AccumulateNew (sG setup) remainder (sN setup) in
  do AccTest3 <- go_mod (AccTest1 * AccTest2) (sN setup);
  Ret {| pk_acc := accNew; pk_Q := Q; pk_l := l; pk_Ql := AccTest1; pk_r := remainder; pk_gr := AccTest2; pk_prod := AccTest3 |}.

(** finaltests.go:305-321 PoKE; the value discarded at line 311 is returned, with challenge and remainder *)
Definition PoKE (fuel : nat) (base exp newAcc N : Z) : outcome (Z * Z * Z) :=
  do l <- HashToPrime sha is_prime fuel (big_bytes newAcc ++ big_bytes base)%string;
  do (quotient, remainder) <- div_mod exp l;
  Ret (AccumulateNew base quotient N, l, remainder).

(** ** finaltests.go:472-614 TestNotusMultiSwap and 617-761 TestNotusParallel. The bodies agree except
    for the set products (516-517: SetProductRecursiveFast of removeSet and of insertSet; 661-662:
    SetProductParallel, twice of removeSet) and the limit of the membership prover (551: 0; 696: 5). *)
Record notus := { nt_removeSet : list Z; nt_insertSet : list Z; nt_unchanged : list Z; nt_prod1 : Z; nt_prod2 : Z;
  nt_removedRan : Z; nt_insertedRan : Z; nt_newSet : list Z; nt_proofs : list Z;
  nt_accOri : Z; nt_accMid : Z; nt_accOld : Z; nt_accNew : Z; nt_pokeQ : Z; nt_ret : UpdateSet32 }.

(** 526-538 / 671-683: product of the eight hashes of a randomizer *)
Definition ran_prod (rand : Z) (start : Z) : Z :=
  fold_left (fun p i => p * poseidon [ElementFromBigInt rand; ElementFromUint32 i]) eight start.

(** the entries written at 492-499, 507-515 / 637-644, 652-660 *)
Definition notus_pairs (js : list Z) : outcome (list (Z * Z)) :=
  map_outcome (fun j =>
    do oh <- ElementFromString (dec j);
    let '(ph, rem) := PoseidonAndDIHash poseidon [ElementFromUint32 j; ElementFromUint32 j; ElementFromUint32 10; oh] in
    Ret (rem, DIHashPoseidon poseidon [ElementFromUint32 j; ElementFromUint32 j; ElementFromUint32 testEpoch; ph])) js.

Section Body.
Variable products : list Z -> list Z -> outcome (Z * Z).       (* removeSet, insertSet to prod1, prod2 before randomization *)
Variable prover : Z -> Z -> Z -> list Z -> outcome (list Z).   (* G, randomizer, N, set *)

Definition Notus (fuel : nat) (setup : Setup) (setsize updatedSetSize : Z) : outcome notus :=
  let js := map (fun i => u32 (u32 (Z.of_nat i * 2) + 1)) (seq 0 (Z.to_nat updatedSetSize)) in
  do pairs <- notus_pairs js;
  let removeSet := map fst pairs in
  let insertSet := map snd pairs in
  do (p1, p2) <- products removeSet insertSet;
  let removedRanProd := ran_prod 200 1 in
  let insertedRanProd := ran_prod 300 1 in
  let prod1 := ran_prod 200 p1 in
  let prod2 := ran_prod 300 p2 in
  (* 546-551 / 691-696: the difference is computed in uint32 *)
  do unchangedSet <- GenBenchSet (u32 (setsize - updatedSetSize));
  do unchanged <- GenRepresentatives sha is_prime poseidon fuel unchangedSet DIHashFromPoseidon;
  let newSet1 := unchanged ++ insertSet in
  do proofs <- prover (sG setup) insertedRanProd (sN setup) newSet1;
  (* 555-559 / 700-704 *)
  do originalProd <- SetProductRecursiveFast (unchanged ++ removeSet);
  let originalProd := originalProd * removedRanProd in
  let accOri := exp_recv 0 (sG setup) originalProd (sN setup) in
  let accMid := exp_recv 0 (sG setup) originalProd (sN setup) in
  (* 562 / 707 *)
  do (q, _, _) <- PoKE fuel accMid removedRanProd accOri (sN setup);
  (* 567-570 / 712-715 *)
  let accOld := exp_recv 0 accMid prod1 (sN setup) in
  let accNew := exp_recv 0 accMid prod2 (sN setup) in
  (* 575-593 / 720-738 *)
  do (l1, t) <- GetChallengeAndAppend sha is_prime fuel (SetupTranscript setup accOld accMid accNew testEpoch);
  do (l2, _) <- GetChallengeAndAppend sha is_prime fuel t;
  do r1 <- go_mod prod1 l1;
  do r2 <- go_mod prod2 l2;
  do d1 <- go_mod Min1024 l1;
  do d2 <- go_mod Min1024 l2;
  let ret := {| u_L1 := l1; u_L2 := l2; u_R1 := r1; u_R2 := r2; u_Epoch := testEpoch; u_D1 := d1; u_D2 := d2;
                u_Rand1 := 200; u_Rand2 := 300; u_OSum := testSum; u_USum := testSum;
                u_ID := js; u_OB := js; u_OH := js; u_OE := map (fun _ => 10) js; u_UB := js |} in
  (* 595-597 / 740-742 *)
  if negb (IsValid ret) then Panic
  else Ret {| nt_removeSet := removeSet; nt_insertSet := insertSet; nt_unchanged := unchanged; nt_prod1 := prod1; nt_prod2 := prod2;
              nt_removedRan := removedRanProd; nt_insertedRan := insertedRanProd; nt_newSet := newSet1; nt_proofs := proofs;
              nt_accOri := accOri; nt_accMid := accMid; nt_accOld := accOld; nt_accNew := accNew; nt_pokeQ := q; nt_ret := ret |}.
End Body.

(** 472-614 *)
Definition TestNotusMultiSwap : nat -> Setup -> Z -> Z -> outcome notus :=
  Notus (fun removeSet insertSet =>
           do p1 <- SetProductRecursiveFast removeSet; do p2 <- SetProductRecursiveFast insertSet; Ret (p1, p2))
        (fun G r N set => ProveMembershipSingleThreadWithRandomizer G r N set).

(** 617-761. The two goroutine computations are arguments, constrained to values they can return *)
Definition runs_product (sp : list Z -> outcome Z) : Prop :=
  forall set, exists v, sp set = Ret v /\ may_return sp_expand (SPTop set 4) v.
Definition runs_prover (pm : Z -> Z -> Z -> list Z -> outcome (list Z)) : Prop :=
  forall G r N set v, pm G r N set = Ret v -> may_return (pm_expand N) (PMRandomizer G r set 5) v.
Definition TestNotusParallel (sp : list Z -> outcome Z) (pm : Z -> Z -> Z -> list Z -> outcome (list Z))
  : nat -> Setup -> Z -> Z -> outcome notus :=
  Notus (fun removeSet insertSet => do p1 <- sp removeSet; do p2 <- sp removeSet; Ret (p1, p2)) pm.
End Experiments.

(** ** integers.go:117-138 genDIMin, genDIMax; make panics on a negative length *)
Definition genDIMin (size : Z) : outcome (list Z) :=
  if size <? 0 then Panic else Ret (repeat Min1024 (Z.to_nat size)).
Definition genDIMax (size : Z) : outcome (list Z) :=
  if size <? 0 then Panic else Ret (repeat (Min1024 + Z.shiftl 1 256) (Z.to_nat size)).
(** integers.go:141-159 TestRange: the three printed lengths *)
Definition TestRange (setSize : Z) : outcome (Z * Z * Z) :=
  do set1 <- genDIMax setSize;
  do set2 <- genDIMin setSize;
  do prodUpper <- SetProductRecursive set1;
  do prodLower <- SetProductRecursive set2;
  Ret (bit_len (prodUpper - prodLower), bit_len prodLower, bit_len prodUpper).

(** ** sizes of the precomputed tables, in 64-bit words *)
Definition UintSize : Z := 64.
(** finaltests.go:116-117 (setSize is an int, products below 2^63 assumed) *)
Definition maxLen_precompute (setSize : Z) : Z := setSize * 1025 / UintSize.
(** finaltests.go:191, 216, 270 *)
Definition maxLen_DI (setSize : Z) : Z := setSize * 2048 / UintSize.
(** finaltests.go:543, 688: setsize is a uint32 *)
Definition maxLen_notus (setsize : Z) : Z := u32 (setsize * 2048) / UintSize.

(** accumulator.go:75-89, the array inputExp that ProveMembershipSingleThreadWithRandomizer passes with the
    table to FourfoldExpPrecomputed (related to the model of the whole function in PropertiesExperiments.v) *)
Definition table_exponents (randomizer : Z) (set : list Z) : outcome (list Z) :=
  let n := length set in
  do sR <- go_slice set (n / 2) n;
  do sL <- go_slice set 0 (n / 2);
  do leftProd0 <- SetProductRecursiveFast sR;
  do rightProd0 <- SetProductRecursiveFast sL;
  let leftProd := leftProd0 * randomizer in
  let rightProd := rightProd0 * randomizer in
  do sLR <- go_slice set (n / 4) (n / 2);
  do sLL <- go_slice set 0 (n / 4);
  do sRR <- go_slice set (n * 3 / 4) n;
  do sRL <- go_slice set (n / 2) (n * 3 / 4);
  do leftleftProd <- SetProductRecursiveFast sLR;
  do leftrightProd <- SetProductRecursiveFast sLL;
  do rightleftProd <- SetProductRecursiveFast sRR;
  do rightrightProd <- SetProductRecursiveFast sRL;
  Ret [leftProd * leftleftProd; leftProd * leftrightProd; rightProd * rightleftProd; rightProd * rightrightProd].
