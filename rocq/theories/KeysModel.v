(** Key files and the Groth16 wrappers of zkmultiswap/zkmultiswap.go, zkmultiswap/common.go:199-310 and
    merkleswap/common.go:58-194.

    The directory is a map from file names to contents. groth16.SetupLazyWithDump writes the circuit, the
    proving key and the verifying key; the proving key is really several files (.pk.A.save, ...), here one, and
    the calls that write and read files are taken to work on whole, readable files. Printing, timing and
    runtime.GC are left out. The witness handed to Groth16 is kept as the assignment; its public part is the
    vector of field elements frontend.NewWitness puts first. Groth16 itself is a parameter: keys, proofs, and
    sat, the check of a compiled circuit. *)
From Coq Require Import ZArith Bool String List.
From Verif Require Import GoBig AccModel HashModel FSModel CircuitModel.
Import ListNotations.
Local Open Scope string_scope.
Open Scope Z_scope.

Inductive family := MultiSwap | MerkleSwap.
Definition family_eqb (f g : family) : bool := match f, g with MultiSwap, MultiSwap | MerkleSwap, MerkleSwap => true | _, _ => false end.
(** a compiled circuit: frontend.Compile of InitCircuitWithSize(size) *)
Definition ccs := (family * Z)%type.
Inductive assignment := AMulti (c : Circuit) | AMerkle (c : MerkleCircuit).
(** frontend.NewWitness(..., PublicOnly()); merkleswap/circuit.go:16-19: TestInputs are public *)
Definition public_of (a : assignment) : list Z :=
  match a with AMulti c => public_vector c | AMerkle c => map fld (TestInputs c) end.
(** the solver refuses a witness whose size is not that of the circuit *)
Definition fits (k : ccs) (a : assignment) : bool :=
  match a with
  | AMulti c => family_eqb (fst k) MultiSwap && forallb (fun l => Z.of_nat (List.length l) =? snd k)
                  [UserID c; OriginalBalances c; OriginalHashes c; OriginalUpdEpoch c; UpdatedBalances c]
  | AMerkle c => family_eqb (fst k) MerkleSwap && forallb (fun l => Z.of_nat (List.length l) =? snd k) [TestInputs c; TestOutputs c]
  end.
Definition prefix_of (f : family) : string := match f with MultiSwap => zkmultiswap_prefix | MerkleSwap => merkleswap_prefix end.

Section Keys.
Variables pkey vkey proof : Type.
(** groth16.Setup with the randomness it draws *)
Variable g_setup : ccs -> nat -> pkey * vkey.
(** the proof computed from a proving key, a circuit and an assignment, with the randomness it draws *)
Variable g_proof : pkey -> ccs -> assignment -> nat -> proof.
(** groth16.Verify: nil error *)
Variable g_verify : proof -> vkey -> list Z -> bool.
Variable sat : ccs -> assignment -> bool.

Inductive content := FCCS (k : ccs) | FPK (k : pkey) | FVK (k : vkey) | FSol (k : vkey).
Definition files := string -> option content.
Definition write (fs : files) (name : string) (c : content) : files := fun n => if String.eqb n name then Some c else fs n.

(** groth16.SetupLazyWithDump(r1cs, fileName) *)
Definition dump (fs : files) (k : ccs) (rnd : nat) : files :=
  let (pk, vk) := g_setup k rnd in let name := file_name (prefix_of (fst k)) (snd k) in
  write (write (write fs (name ".ccs.save") (FCCS k)) (name ".pk.save") (FPK pk)) (name ".vk.save") (FVK vk).
(** zkmultiswap.go:36-53, merkleswap/common.go:111-128. The MultiSwap circuit indexes the first user, so a
    circuit without users does not compile (circuit.go:68) *)
Definition SetupZkMultiswap (fs : files) (f : family) (size : Z) (rnd : nat) : outcome files :=
  match f with
  | MultiSwap => if size <=? 0 then Panic else Ret (dump fs (f, size) rnd)
  | MerkleSwap => Ret (dump fs (f, size) rnd)
  end.
(** common.go:199-206, merkleswap/common.go:85-92 *)
Definition isCircuitExist (fs : files) (f : family) (size : Z) : bool :=
  match fs (file_name (prefix_of f) size ".ccs.save") with Some _ => true | None => false end.

(** groth16.ProveRoll(..., backend.IgnoreSolverError()): an assignment that violates the constraints is not
    an error *)
Definition ProveRoll (ignoreSolverError : bool) (k : ccs) (pk : pkey) (a : assignment) (rnd : nat) : option proof :=
  if negb (fits k a) then None
  else if sat k a || ignoreSolverError then Some (g_proof pk k a rnd) else None.

Definition read_pk (fs : files) (name : string) : option pkey := match fs name with Some (FPK k) => Some k | _ => None end.
Definition read_ccs (fs : files) (name : string) : option ccs := match fs name with Some (FCCS k) => Some k | _ => None end.
Definition read_vk (fs : files) (name : string) : option vkey := match fs name with Some (FVK k) => Some k | _ => None end.

(** zkmultiswap.go:56-89: [Ret None] is a returned error *)
Definition Prove (fs : files) (input : UpdateSet32) (rnd : nat) : outcome (option proof) :=
  let name := file_name zkmultiswap_prefix (Z.of_nat (List.length (u_ID input))) in
  match read_pk fs (name ".pk.save") with
  | None => Ret None
  | Some pk =>
      match read_ccs fs (name ".ccs.save") with
      | None => Ret None
      | Some k => do c <- AssignCircuit input; Ret (ProveRoll true k pk (AMulti c) rnd)
      end
  end.
(** zkmultiswap.go:20-32, 123-143: without a verifying key it panics (126-128) *)
Definition Verify (fs : files) (p : proof) (setsize : Z) (publicInfo : PublicInfo) : outcome bool :=
  match read_vk fs (file_name zkmultiswap_prefix setsize ".vk.save") with
  | None => Panic
  | Some vk => Ret (g_verify p vk (GenPublicWitness publicInfo))
  end.

Variable poseidon : list Z -> Z.
Variable sha : string -> string.
Variable is_prime : Z -> bool.
Variable fuel : nat.

(** common.go:209-236: the directory afterwards and whether it prints "Verification passed". rs, rp: the
    randomness of a setup and of the proof *)
Definition TestMultiSwap (fs : files) (size : Z) (setup : Setup) (midExp : Z) (rs rp : nat) : outcome (files * bool) :=
  do fs <- (if negb (isCircuitExist fs MultiSwap size) then SetupZkMultiswap fs MultiSwap size rs else Ret fs);
  do testSet <- GenTestSet poseidon sha is_prime fuel (Z.to_nat size) setup midExp;
  do p <- Prove fs testSet rp;
  match p with
  | None => Panic
  | Some p => do flag <- Verify fs p size (PublicPart testSet); Ret (fs, flag)
  end.
(** common.go:238-263 *)
Definition OutputSmartContract (fs : files) (size : Z) (rs : nat) : outcome files :=
  do fs <- (if negb (isCircuitExist fs MultiSwap size) then SetupZkMultiswap fs MultiSwap size rs else Ret fs);
  match read_vk fs (file_name zkmultiswap_prefix size ".vk.save") with
  | None => Panic
  | Some vk => Ret (write fs "contract_g16.sol" (FSol vk))
  end.
(** common.go:265-365: the directory, and if the verification passed the proof and the seven inputs printed.
    The setup of line 271 (r1) is dumped and used by Prove and Verify, the one of line 272 (r2) gives the key
    of the exported contract *)
Definition OutputSmartContract2 (fs : files) (size : Z) (setup : Setup) (midExp : Z) (r1 r2 rp : nat) :
    outcome (files * option (proof * list Z)) :=
  do fs <- SetupZkMultiswap fs MultiSwap size r1;
  let (pk, vk) := g_setup (MultiSwap, size) r2 in
  let fs := write (write (write fs "Notus.g16.vk" (FVK vk)) "Notus.g16.pk" (FPK pk)) "Notuscontract_g16.sol" (FSol vk) in
  do testSet <- GenTestSet poseidon sha is_prime fuel (Z.to_nat size) setup midExp;
  do p <- Prove fs testSet rp;
  match p with
  | None => Panic
  | Some p =>
      do flag <- Verify fs p size (PublicPart testSet);
      Ret (fs, if negb flag then None else Some (p, contract_input (PublicPart testSet)))
  end.
(** the contract in file [name] on a proof and its inputs *)
Definition contract_accepts (fs : files) (name : string) (p : proof) (input : list Z) : bool :=
  match fs name with Some (FSol vk) => g_verify p vk input | _ => false end.

(** merkleswap/common.go:131-165 *)
Definition MerkleProve (fs : files) (size : Z) (rnd : nat) : option proof :=
  let name := file_name merkleswap_prefix size in
  match read_pk fs (name ".pk.save") with
  | None => None
  | Some pk =>
      match read_ccs fs (name ".ccs.save") with
      | None => None
      | Some k => ProveRoll true k pk (AMerkle (MerkleAssign poseidon (Z.to_nat size))) rnd
      end
  end.
(** merkleswap/common.go:168-194 *)
Definition MerkleVerify (fs : files) (p : proof) (size : Z) : outcome bool :=
  match read_vk fs (file_name merkleswap_prefix size ".vk.save") with
  | None => Panic
  | Some vk => Ret (g_verify p vk (public_of (AMerkle (MerkleAssign poseidon (Z.to_nat size)))))
  end.
(** merkleswap/common.go:58-83 *)
Definition TestMerkleMultiSwap (fs : files) (size : Z) (rs rp : nat) : outcome (files * bool) :=
  do fs <- (if negb (isCircuitExist fs MerkleSwap size) then SetupZkMultiswap fs MerkleSwap size rs else Ret fs);
  match MerkleProve fs size rp with
  | None => Panic
  | Some p => do flag <- MerkleVerify fs p size; Ret (fs, flag)
  end.

(** ** Histories: what a process (or several, one after the other) does to the directory *)
Inductive event :=
| ESetup (f : family) (size : Z) (rnd : nat)
| ETest (f : family) (size : Z) (setup : Setup) (midExp : Z) (rs rp : nat)
| EContract (size : Z) (rs : nat)
| EContract2 (size : Z) (setup : Setup) (midExp : Z) (r1 r2 rp : nat).
(** a panic ends the program, but what it wrote before stays: only the setup writes *)
Definition after_setup_if_missing (fs : files) (f : family) (size : Z) (rs : nat) : files :=
  if isCircuitExist fs f size then fs else match SetupZkMultiswap fs f size rs with Ret fs => fs | _ => fs end.
Definition do_event (fs : files) (e : event) : files :=
  match e with
  | ESetup f size rnd => match SetupZkMultiswap fs f size rnd with Ret fs' => fs' | _ => fs end
  | ETest f size _ _ rs _ => after_setup_if_missing fs f size rs
  | EContract size rs => match OutputSmartContract fs size rs with Ret fs' => fs' | _ => after_setup_if_missing fs MultiSwap size rs end
  | EContract2 size setup midExp r1 r2 rp =>
      match SetupZkMultiswap fs MultiSwap size r1 with
      | Ret fs => let (pk, vk) := g_setup (MultiSwap, size) r2 in
          write (write (write fs "Notus.g16.vk" (FVK vk)) "Notus.g16.pk" (FPK pk)) "Notuscontract_g16.sol" (FSol vk)
      | _ => fs
      end
  end.
Definition history (l : list event) : files := fold_left do_event l (fun _ => None).
End Keys.
