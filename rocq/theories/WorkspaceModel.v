(** The directory zkmultiswap/gnark-tests/solidity as a workspace: the key files, the exported contract, the compiled
    contract and the Go binding, the commands that change them (generate.go:3-5, contract/main.go, gnark-tests/Makefile, git)
    and the contract's test (solidity_groth16_test.go). Groth16 is the parameter it is in KeysModel; the contract exported for a
    verifying key answers as groth16.Verify with that key (C96, C97), and so do the compiled contract and the binding made
    from it. Commands work on whole files; solc and abigen succeed when their input exists. *)
From Coq Require Import ZArith Bool String List.
From Verif Require Import GoBig AccModel HashModel FSModel CircuitModel KeysModel.
Import ListNotations.
Open Scope Z_scope.

Section Workspace.
Variables pkey vkey proof : Type.
Variable g_setup : ccs -> nat -> pkey * vkey.
Variable g_proof : pkey -> ccs -> assignment -> nat -> proof.
Variable g_verify : proof -> vkey -> list Z -> bool.
Variable sat : ccs -> assignment -> bool.

Record workspace := MkWorkspace {
  w_ccs : option ccs; w_pk : option pkey; w_vk : option vkey;      (* zkmultiswap.ccs.save, .pk.*.save, .vk.save *)
  w_sol : option vkey;                                               (* Notuscontract_g16.sol *)
  w_json : option vkey;                                              (* abi/combined.json *)
  w_go : option vkey }.                                              (* solidity_groth16.go *)

(** contract/main.go:16-17, solidity_groth16_test.go:29 *)
Definition contractSetSize : Z := 5.
Definition contract_ccs : ccs := (MultiSwap, contractSetSize).

(** the randomness of the setup behind the files in the repository; .gitignore keeps *.save out *)
Variable committed : nat.
Definition committed_vk : option vkey := Some (snd (g_setup contract_ccs committed)).
Definition clone : workspace := MkWorkspace None None None committed_vk committed_vk committed_vk.

Inductive command :=
| RunMain (rnd : nat)      (* go run contract/main.go *)
| Solc                     (* solc --combined-json abi,bin Notuscontract_g16.sol -o abi --overwrite *)
| Abigen                   (* abigen --combined-json abi/combined.json --out solidity_groth16.go *)
| GoGenerate (rnd : nat)   (* go generate: the three above, stopping at the first that fails *)
| MakeClean                (* rm -fr ./abi/* && rm zkmultiswap.* *)
| Checkout.                (* git checkout . *)

(** contract/main.go:26-62: a setup, its three files, the contract of the key read back *)
Definition run_main (w : workspace) (rnd : nat) : workspace :=
  let (pk, vk) := g_setup contract_ccs rnd in
  MkWorkspace (Some contract_ccs) (Some pk) (Some vk) (Some vk) (w_json w) (w_go w).
(** None: the command fails without output *)
Definition solc (w : workspace) : option workspace :=
  match w_sol w with Some v => Some (MkWorkspace (w_ccs w) (w_pk w) (w_vk w) (w_sol w) (Some v) (w_go w)) | None => None end.
Definition abigen (w : workspace) : option workspace :=
  match w_json w with Some v => Some (MkWorkspace (w_ccs w) (w_pk w) (w_vk w) (w_sol w) (w_json w) (Some v)) | None => None end.
Definition or_same (w : workspace) (o : option workspace) : workspace := match o with Some w' => w' | None => w end.
Definition execute (w : workspace) (c : command) : workspace :=
  match c with
  | RunMain rnd => run_main w rnd
  | Solc => or_same w (solc w)
  | Abigen => or_same w (abigen w)
  | GoGenerate rnd =>
      let w1 := run_main w rnd in
      match solc w1 with Some w2 => or_same w2 (abigen w2) | None => w1 end
  | MakeClean => MkWorkspace None None None (w_sol w) None (w_go w)
  | Checkout => MkWorkspace (w_ccs w) (w_pk w) (w_vk w) committed_vk committed_vk committed_vk
  end.
Definition session (l : list command) : workspace := fold_left execute l clone.

Variable poseidon : list Z -> Z.
Variable sha : string -> string.
Variable is_prime : Z -> bool.
Variable fuel : nat.

(** go test: true when the suite passes. Without the binding the package does not compile; missing key files fail an
    assertion or the index t.pk[0] (74-91, 106); solidity_groth16_test.go:53-201. Gas and the chain are as in ChainModel *)
Definition go_test (w : workspace) (midExp : Z) (rnd : nat) : bool :=
  match w_go w, w_ccs w, w_pk w, w_vk w with
  | Some contract, Some k, Some pk, Some _ =>
      match (do u <- GenTestSet poseidon sha is_prime fuel (Z.to_nat contractSetSize) TrustedSetup midExp; do c <- AssignCircuit u; Ret (u, c)) with
      | Ret (u, c) =>
          match ProveRoll pkey proof g_proof sat true k pk (AMulti c) rnd with
          | Some p =>
              let input := contract_test_input (PublicPart u) in
              (* 187-191 *) g_verify p contract input &&
              (* 193-200 *) negb (g_verify p contract (42 :: tl input))
          | None => false
          end
      | _ => false
      end
  | _, _, _, _ => false
  end.
End Workspace.
