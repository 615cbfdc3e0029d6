(** The Pairing library of the generated binding: PairingMetaData.Bin of
    /repo/zkmultiswap/gnark-tests/solidity/solidity_groth16.go:33-36, deployed by DeployPairing (47-63).

    The code uses three instructions the verifier does not use: BYTE, ADDRESS and MSTORE8, which are added here to
    the machine of EvmModel. *)
From Coq Require Import ZArith Bool String List.
From Verif Require Import SolModel EvmModel EvmCode.
Import ListNotations.
Open Scope Z_scope.

(** solidity_groth16.go:35 *)
Local Open Scope string_scope.
Definition PairingBin : list Z := Eval vm_compute in from_hex (
  "60566050600b82828239805160001a6073146043577f4e487b710000000000000000000000000000000000000000000000000000000060"
  ++ "0052600060045260246000fd5b30600052607381538281f3fe730000000000000000000000000000000000000000301460806040526000"
  ++ "80fdfea2646970667358221220810cfc148b7b46391992a313f584aa54823a6351215631e8dd39d2c65c67b1ed64736f6c634300081500"
  ++ "33").
Local Close Scope string_scope.

Section Library.
Variable code : list Z.
Variable prg : prog.
Variable cd : list Z.
Variable value : Z.
Variable gas : nat -> Z.
Variable pre : Z -> list Z -> callres (list Z).
Variable self : Z.                      (* the address of the running contract *)

Definition lib_step (s : state) : state + result :=
  match instr_at prg (pc s), stk s with
  | Some (OTHER 0x1a), i :: x :: st => next s (pc s + 1) ((if i <? 32 then byte_of x i else 0) :: st) (mm s)     (* BYTE *)
  | Some (OTHER 0x30), st => next s (pc s + 1) (self :: st) (mm s)                                              (* ADDRESS *)
  | Some (OTHER 0x53), a :: v :: st => next s (pc s + 1) st (mwrite (mm s) a [v mod 256])                       (* MSTORE8 *)
  | _, _ => step code prg cd value gas pre s
  end.
Fixpoint lib_run (fuel : nat) (s : state) : result :=
  match fuel with
  | O => ROutOfFuel
  | S f => match lib_step s with inl s => lib_run f s | inr r => r end
  end.
End Library.

(** a run of code by the account self, with the given call data and payment. DeployPairing is a run of PairingBin
    without call data; what it returns is the code of the account from then on *)
Definition run_account (pre : Z -> list Z -> callres (list Z)) (gas : nat -> Z) (self : Z) (code cd : list Z) (value : Z) (fuel : nat) : result :=
  lib_run code (decode code) cd value gas pre self fuel start.
