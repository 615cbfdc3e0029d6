(** zkmultiswap: the MultiSwap circuit, its assignment, the public witness and the test set generator
    (zkmultiswap/circuit.go, common.go, zkmultiswap.go), and merkleswap (circuit.go, common.go).

    A circuit variable holds a field element, represented by its canonical integer in
    [0, fr_modulus). The constraints of gnark's API are modelled by their meaning on those integers:
    ToBinary(v, n) holds iff v < 2^n, AssertIsLess(a, b) iff a < b, Add and Sub are field operations,
    AssertIsEqual is equality. MulModP (an addition of the gnark fork) is a relation [mulmod a b p r]
    between its arguments and its result, kept abstract; poseidon is any function into the field, the
    same inside and outside the circuit. The compilation to R1CS, Groth16, files and printing are not
    modelled. *)
From Coq Require Import ZArith Bool String List.
From Verif Require Import GoBig AccModel HashModel FSModel.
Import ListNotations.
Open Scope Z_scope.

Definition fadd (a b : Z) : Z := (a + b) mod fr_modulus.
Definition fsub (a b : Z) : Z := (a - b) mod fr_modulus.
Definition BitLength : Z := 32.                                  (* common.go:26 *)

(** circuit.go:11-34 *)
Record Circuit := { ChallengeL1 : Z; ChallengeL2 : Z; RemainderR1 : Z; RemainderR2 : Z; CurrentEpochNum : Z;
  DeltaModL1 : Z; DeltaModL2 : Z; Randomizer1 : Z; Randomizer2 : Z; OriginalSum : Z; UpdatedSum : Z;
  UserID : list Z; OriginalBalances : list Z; OriginalHashes : list Z; OriginalUpdEpoch : list Z; UpdatedBalances : list Z }.

(** one user's entries *)
Record row := { r_id : Z; r_ob : Z; r_oh : Z; r_oe : Z; r_ub : Z }.
(** the loops index the other lists with the indices of UserID: a shorter list panics *)
Fixpoint rows_of (ids obs ohs oes ubs : list Z) : outcome (list row) :=
  match ids with
  | [] => Ret []
  | i :: ids =>
      match obs, ohs, oes, ubs with
      | ob :: obs, oh :: ohs, oe :: oes, ub :: ubs =>
          do rest <- rows_of ids obs ohs oes ubs;
          Ret ({| r_id := i; r_ob := ob; r_oh := oh; r_oe := oe; r_ub := ub |} :: rest)
      | _, _, _, _ => Panic
      end
  end.

Definition ToBinary (v n : Z) : Prop := v < 2 ^ n.
Definition AssertIsLess (a b : Z) : Prop := a < b.

Section Circuit.
Variable poseidon : list Z -> Z.
Variable mulmod : Z -> Z -> Z -> Z -> Prop.

(** circuit.go:57-59 *)
Fixpoint increasing_ids (l : list row) : Prop :=
  match l with
  | a :: ((b :: _) as rest) => AssertIsLess (r_id a) (r_id b) /\ increasing_ids rest
  | _ => True
  end.
(** circuit.go:62-66 *)
Definition ranges (epoch : Z) (l : list row) : Prop :=
  Forall (fun r => ToBinary (r_ob r) BitLength /\ AssertIsLess (r_oe r) epoch /\ ToBinary (r_ub r) BitLength) l.
(** circuit.go:72-85: remainder1, remainder2, tempSum before and after *)
Fixpoint user_loop (c : Circuit) (l : list row) (rem1 rem2 sum rem1' rem2' sum' : Z) : Prop :=
  match l with
  | [] => rem1' = rem1 /\ rem2' = rem2 /\ sum' = sum
  | r :: rest =>
      let tempHash0 := poseidon [r_id r; r_ob r; r_oe r; r_oh r] in
      let tempHash1 := fadd tempHash0 (DeltaModL1 c) in
      let tempHash2 := fadd (poseidon [r_id r; r_ub r; CurrentEpochNum c; tempHash0]) (DeltaModL2 c) in
      exists m1 m2, mulmod rem1 tempHash1 (ChallengeL1 c) m1 /\ mulmod rem2 tempHash2 (ChallengeL2 c) m2 /\
        user_loop c rest m1 m2 (fadd (fsub sum (r_ob r)) (r_ub r)) rem1' rem2' sum'
  end.
(** circuit.go:87-93 *)
Fixpoint randomizer_loop (c : Circuit) (is : list Z) (rem1 rem2 rem1' rem2' : Z) : Prop :=
  match is with
  | [] => rem1' = rem1 /\ rem2' = rem2
  | i :: rest =>
      exists m1 m2, mulmod rem1 (poseidon [Randomizer1 c; i]) (ChallengeL1 c) m1 /\
        mulmod rem2 (poseidon [Randomizer2 c; i]) (ChallengeL2 c) m2 /\ randomizer_loop c rest m1 m2 rem1' rem2'
  end.
Definition eight : list Z := [0; 1; 2; 3; 4; 5; 6; 7].

(** circuit.go:37-99 *)
Definition Define (c : Circuit) : outcome Prop :=
  do rows <- rows_of (UserID c) (OriginalBalances c) (OriginalHashes c) (OriginalUpdEpoch c) (UpdatedBalances c);
  do ob0 <- go_index (OriginalBalances c) 0;
  do ub0 <- go_index (UpdatedBalances c) 0;
  Ret (
    ToBinary (Randomizer1 c) BitLength /\ ToBinary (Randomizer2 c) BitLength /\
    AssertIsLess (DeltaModL1 c) (ChallengeL1 c) /\ AssertIsLess (DeltaModL2 c) (ChallengeL2 c) /\
    List.length (UserID c) = List.length (OriginalBalances c) /\ List.length (UserID c) = List.length (OriginalHashes c) /\
    List.length (UserID c) = List.length (OriginalUpdEpoch c) /\ List.length (UserID c) = List.length (UpdatedBalances c) /\
    AssertIsLess (RemainderR1 c) (ChallengeL1 c) /\ AssertIsLess (RemainderR2 c) (ChallengeL2 c) /\
    ToBinary (CurrentEpochNum c) BitLength /\ ToBinary (OriginalSum c) BitLength /\ ToBinary (UpdatedSum c) BitLength /\
    increasing_ids rows /\ ranges (CurrentEpochNum c) rows /\
    exists rem1 rem2 tempSum rem1' rem2',
      user_loop c rows 1 1 (fadd (fsub (OriginalSum c) ob0) ub0) rem1 rem2 tempSum /\
      randomizer_loop c eight rem1 rem2 rem1' rem2' /\
      rem1' = RemainderR1 c /\ rem2' = RemainderR2 c /\ tempSum = UpdatedSum c).
(** an assignment of field elements that satisfies all constraints *)
Definition satisfied (c : Circuit) : Prop := exists P, Define c = Ret P /\ P.

(** ** Assignment *)

(** common.go:37-54 *)
Record UpdateSet32 := { u_L1 : Z; u_L2 : Z; u_R1 : Z; u_R2 : Z; u_Epoch : Z; u_D1 : Z; u_D2 : Z; u_Rand1 : Z; u_Rand2 : Z;
  u_OSum : Z; u_USum : Z; u_ID : list Z; u_OB : list Z; u_OH : list Z; u_OE : list Z; u_UB : list Z }.
(** common.go:57-65 *)
Record PublicInfo := { p_L1 : Z; p_L2 : Z; p_R1 : Z; p_R2 : Z; p_Epoch : Z; p_D1 : Z; p_D2 : Z }.

(** common.go:68-85 *)
Definition IsValid (u : UpdateSet32) : bool :=
  if (List.length (u_ID u) <? 2)%nat then false
  else if negb (List.length (u_ID u) =? List.length (u_OB u))%nat then false
  else if negb (List.length (u_ID u) =? List.length (u_OH u))%nat then false
  else if negb (List.length (u_ID u) =? List.length (u_OE u))%nat then false
  else if negb (List.length (u_ID u) =? List.length (u_UB u))%nat then false
  else true.
(** common.go:187-197 *)
Definition PublicPart (u : UpdateSet32) : PublicInfo :=
  {| p_L1 := u_L1 u; p_L2 := u_L2 u; p_R1 := u_R1 u; p_R2 := u_R2 u; p_Epoch := u_Epoch u; p_D1 := u_D1 u; p_D2 := u_D2 u |}.

(** circuit.go:151-161: the first [size] entries; a shorter list would panic *)
Definition take (size : nat) (l : list Z) : outcome (list Z) := map_outcome (fun i => go_index l i) (seq 0 size).
(** circuit.go:132-163 *)
Definition AssignCircuit (u : UpdateSet32) : outcome Circuit :=
  if negb (IsValid u) then Panic
  else
    let size := List.length (u_OB u) in
    do ids <- take size (u_ID u); do obs <- take size (u_OB u); do ohs <- take size (u_OH u);
    do oes <- take size (u_OE u); do ubs <- take size (u_UB u);
    Ret {| ChallengeL1 := u_L1 u; ChallengeL2 := u_L2 u; RemainderR1 := u_R1 u; RemainderR2 := u_R2 u;
           CurrentEpochNum := u_Epoch u; DeltaModL1 := u_D1 u; DeltaModL2 := u_D2 u;
           OriginalSum := u_OSum u; UpdatedSum := u_USum u; Randomizer1 := u_Rand1 u; Randomizer2 := u_Rand2 u;
           UserID := ids; OriginalBalances := obs; OriginalHashes := ohs; OriginalUpdEpoch := oes; UpdatedBalances := ubs |}.
(** circuit.go:102-129 *)
Definition InitCircuitWithSize (size : nat) : Circuit :=
  {| ChallengeL1 := 1; ChallengeL2 := 1; RemainderR1 := 0; RemainderR2 := 0; CurrentEpochNum := 1; DeltaModL1 := 0; DeltaModL2 := 0;
     OriginalSum := 1; UpdatedSum := 1; Randomizer1 := 1; Randomizer2 := 1;
     UserID := map Z.of_nat (seq 0 size); OriginalBalances := repeat 0 size; OriginalHashes := repeat 1 size;
     OriginalUpdEpoch := repeat 0 size; UpdatedBalances := repeat 0 size |}.
(** circuit.go:166-177 *)
Definition AssignCircuitHelper (p : PublicInfo) : Circuit :=
  let c := InitCircuitWithSize 1 in
  {| ChallengeL1 := p_L1 p; ChallengeL2 := p_L2 p; RemainderR1 := p_R1 p; RemainderR2 := p_R2 p; CurrentEpochNum := p_Epoch p;
     DeltaModL1 := p_D1 p; DeltaModL2 := p_D2 p; OriginalSum := OriginalSum c; UpdatedSum := UpdatedSum c;
     Randomizer1 := Randomizer1 c; Randomizer2 := Randomizer2 c; UserID := UserID c; OriginalBalances := OriginalBalances c;
     OriginalHashes := OriginalHashes c; OriginalUpdEpoch := OriginalUpdEpoch c; UpdatedBalances := UpdatedBalances c |}.

(** ** Witnesses: the fields in the order of declaration (circuit.go:14-33), with their visibility *)
Inductive visibility := Public | Secret.
Definition visible (v : visibility) : bool := match v with Public => true | Secret => false end.
Definition circuit_fields (c : Circuit) : list (string * visibility * list Z) :=
  [("ChallengeL1", Public, [ChallengeL1 c]); ("ChallengeL2", Public, [ChallengeL2 c]); ("RemainderR1", Public, [RemainderR1 c]);
   ("RemainderR2", Public, [RemainderR2 c]); ("CurrentEpochNum", Public, [CurrentEpochNum c]);
   ("DeltaModL1", Public, [DeltaModL1 c]); ("DeltaModL2", Public, [DeltaModL2 c]);
   ("Randomizer1", Secret, [Randomizer1 c]); ("Randomizer2", Secret, [Randomizer2 c]); ("OriginalSum", Secret, [OriginalSum c]);
   ("UpdatedSum", Secret, [UpdatedSum c]); ("UserID", Secret, UserID c); ("OriginalBalances", Secret, OriginalBalances c);
   ("OriginalHashes", Secret, OriginalHashes c); ("OriginalUpdEpoch", Secret, OriginalUpdEpoch c);
   ("UpdatedBalances", Secret, UpdatedBalances c)]%string.
(** frontend.NewWitness: the public values, then the secret ones, as field elements; PublicOnly keeps
    the first part; witness.Public() returns it *)
Definition collect (v : bool) (c : Circuit) : list Z :=
  map (fun z => z mod fr_modulus) (flat_map snd (filter (fun f => Bool.eqb (visible (snd (fst f))) v) (circuit_fields c))).
Definition public_vector (c : Circuit) : list Z := collect true c.
Definition NewWitness (c : Circuit) : list Z * list Z := (public_vector c, collect false c).

(** zkmultiswap.go:112-120 *)
Definition GenPublicWitness (p : PublicInfo) : list Z := public_vector (AssignCircuitHelper p).
(** zkmultiswap.go:92-109 *)
Definition VerifyPublicWitness (w : list Z) (p : PublicInfo) : bool :=
  if list_eq_dec Z.eq_dec w (public_vector (AssignCircuitHelper p)) then true else false.
(** common.go:353-359: input[0..6] for the contract *)
Definition contract_input (p : PublicInfo) : list Z := [p_L1 p; p_L2 p; p_Epoch p; p_D1 p; p_D2 p; p_R1 p; p_R2 p].
(** gnark-tests/solidity/solidity_groth16_test.go:153-159: the same for the contract's test *)
Definition contract_test_input (p : PublicInfo) : list Z := [p_L1 p; p_L2 p; p_R1 p; p_R2 p; p_Epoch p; p_D1 p; p_D2 p].

(** the assignment as seen by the constraints: every value reduced into the field *)
Definition fld (z : Z) : Z := z mod fr_modulus.
Definition field_circuit (c : Circuit) : Circuit :=
  {| ChallengeL1 := fld (ChallengeL1 c); ChallengeL2 := fld (ChallengeL2 c); RemainderR1 := fld (RemainderR1 c);
     RemainderR2 := fld (RemainderR2 c); CurrentEpochNum := fld (CurrentEpochNum c);
     DeltaModL1 := fld (DeltaModL1 c); DeltaModL2 := fld (DeltaModL2 c); OriginalSum := fld (OriginalSum c);
     UpdatedSum := fld (UpdatedSum c); Randomizer1 := fld (Randomizer1 c); Randomizer2 := fld (Randomizer2 c);
     UserID := map fld (UserID c); OriginalBalances := map fld (OriginalBalances c); OriginalHashes := map fld (OriginalHashes c);
     OriginalUpdEpoch := map fld (OriginalUpdEpoch c); UpdatedBalances := map fld (UpdatedBalances c) |}.

(** ** The test set *)
Variable sha : string -> string.
Variable is_prime : Z -> bool.

(** common.go:95-99: the accumulators are not used *)
Definition SetupTranscript (setup : Setup) (accOld accMid accNew epoch : Z) : Transcript :=
  Append (InitTranscript [dec (sG setup); dec (sN setup)] Max252) (dec epoch).

Definition u32 (z : Z) : Z := z mod 2 ^ 32.
Definition testEpoch : Z := 1000000.        (* common.go:28 *)
Definition testSum : Z := 10000.            (* common.go:30 *)

(** common.go:102-184; midExp is the exponent drawn by getRandomAcc (87-92) *)
Definition GenTestSet (fuel : nat) (setsize : nat) (setup : Setup) (midExp : Z) : outcome UpdateSet32 :=
  let js := map (fun i => u32 (u32 (Z.of_nat i * 2) + 1)) (seq 0 setsize) in
  (* 125-135 *)
  do pairs <- map_outcome (fun j =>
    do oh <- ElementFromString (dec j);
    let '(ph, rem) := PoseidonAndDIHash poseidon [ElementFromUint32 j; ElementFromUint32 j; ElementFromUint32 10; oh] in
    Ret (rem, DIHashPoseidon poseidon [ElementFromUint32 j; ElementFromUint32 j; ElementFromUint32 testEpoch; ph])) js;
  do prod1 <- SetProductRecursiveFast (map fst pairs);
  do prod2 <- SetProductRecursiveFast (map snd pairs);
  (* 138-150 *)
  let prod1 := fold_left (fun p i => p * poseidon [ElementFromBigInt 200; ElementFromUint32 i]) eight prod1 in
  let prod2 := fold_left (fun p i => p * poseidon [ElementFromBigInt 300; ElementFromUint32 i]) eight prod2 in
  (* 153-156 *)
  let accMid := exp_recv 0 (sG setup) midExp (sN setup) in
  let accOld := exp_recv 0 accMid prod1 (sN setup) in
  let accNew := exp_recv 0 accMid prod2 (sN setup) in
  (* 159-161 *)
  do (l1, t) <- GetChallengeAndAppend sha is_prime fuel (SetupTranscript setup accOld accMid accNew testEpoch);
  do (l2, _) <- GetChallengeAndAppend sha is_prime fuel t;
  (* 164-178 *)
  do r1 <- go_mod prod1 l1;
  do r2 <- go_mod prod2 l2;
  do d1 <- go_mod Min1024 l1;
  do d2 <- go_mod Min1024 l2;
  let ret := {| u_L1 := l1; u_L2 := l2; u_R1 := r1; u_R2 := r2; u_Epoch := testEpoch; u_D1 := d1; u_D2 := d2;
                u_Rand1 := 200; u_Rand2 := 300; u_OSum := testSum; u_USum := testSum;
                u_ID := js; u_OB := js; u_OH := js; u_OE := map (fun _ => 10) js; u_UB := js |} in
  if negb (IsValid ret) then Panic else Ret ret.
End Circuit.

(** ** merkleswap *)
Section Merkle.
Variable poseidon : list Z -> Z.
(** merkleswap/circuit.go:9, 15-20 *)
Definition TreeDepth : nat := 28.
Record MerkleCircuit := { TestInputs : list Z; TestOutputs : list Z }.
(** merkleswap/circuit.go:25-28 *)
Fixpoint merkle_chain (depth : nat) (x h : Z) : Z :=
  match depth with O => h | S d => merkle_chain d x (poseidon [x; h]) end.
(** merkleswap/circuit.go:23-32: an index outside TestOutputs panics *)
Fixpoint MerkleDefine (ins outs : list Z) : outcome Prop :=
  match ins with
  | [] => Ret True
  | x :: ins =>
      match outs with
      | [] => Panic
      | o :: outs => do P <- MerkleDefine ins outs; Ret (merkle_chain TreeDepth x (poseidon [x; x]) = o /\ P)
      end
  end.
Definition merkle_satisfied (c : MerkleCircuit) : Prop := exists P, MerkleDefine (TestInputs c) (TestOutputs c) = Ret P /\ P.
(** merkleswap/common.go:24-33 *)
Definition MerkleInit (size : nat) : MerkleCircuit := {| TestInputs := repeat 1 size; TestOutputs := repeat 1 size |}.
(** merkleswap/common.go:36-53 *)
Definition MerkleAssign (size : nat) : MerkleCircuit :=
  let helper := map Z.of_nat (seq 0 size) in
  {| TestInputs := helper;
     TestOutputs := map (fun i => let e := ElementFromUint32 i in merkle_chain TreeDepth e (poseidon [e; e])) helper |}.
Definition merkle_field (c : MerkleCircuit) : MerkleCircuit :=
  {| TestInputs := map fld (TestInputs c); TestOutputs := map fld (TestOutputs c) |}.
End Merkle.

(** ** File names: zkmultiswap.go:46, 58, 124; common.go:200 and merkleswap/common.go (same expressions
    with the other prefix). The suffixes are those written by groth16.SetupLazyWithDump and read by
    LoadVerifyingKey (zkmultiswap.go:22). *)
Definition zkmultiswap_prefix : string := "zkmultiswap".
Definition merkleswap_prefix : string := "merkleswap".
Definition file_name (prefix : string) (size : Z) (suffix : string) : string :=
  (prefix ++ "_" ++ dec size ++ suffix)%string.
