(** /repo/zkmultiswap/gnark-tests/solidity: calling the deployed verifier from Go.
    External code modelled from its documentation: Proof.WriteRawTo (32 bytes per coordinate: Ar, Bs, Krs), abi.Pack
    (selector and 256-bit words), decoding of a bool. EstimateGas is left out: it runs the same call and ends the test when
    the call reverts. *)
From Coq Require Import ZArith Bool String List.
From Verif Require Import GoBig SolModel CircuitModel EvmModel Keccak.
Import ListNotations.
Open Scope Z_scope.

(** solidity_groth16_test.go:149-156 (and common.go:345-352): coordinate i of the proof bytes; SetBytes is [be].
    Slicing a short string panics. *)
Definition coordinate (proofBytes : list Z) (i : nat) : outcome Z :=
  if (32 * (i + 1) <=? List.length proofBytes)%nat then Ret (be (firstn 32 (skipn (32 * i) proofBytes))) else Panic.
Definition proof_args (proofBytes : list Z) : outcome ((Z * Z) * ((Z * Z) * (Z * Z)) * (Z * Z)) :=
  do a0 <- coordinate proofBytes 0; do a1 <- coordinate proofBytes 1;
  do b00 <- coordinate proofBytes 2; do b01 <- coordinate proofBytes 3;
  do b10 <- coordinate proofBytes 4; do b11 <- coordinate proofBytes 5;
  do c0 <- coordinate proofBytes 6; do c1 <- coordinate proofBytes 7;
  Ret ((a0, a1), ((b00, b01), (b10, b11)), (c0, c1)).
(** gnark: Proof.WriteRawTo on the affine coordinates; a G2 coordinate is written A1 first *)
Definition WriteRawTo (a : Z * Z) (b : (Z * Z) * (Z * Z)) (c : Z * Z) : list Z :=
  flat_map be_bytes [fst a; snd a; fst (fst b); snd (fst b); fst (snd b); snd (snd b); fst c; snd c].

(** go-ethereum: abi.Pack("verifyProof", a, b, c, input) for the ABI at solidity_groth16.go:207; arrays of static types are laid
    out in place, numbers are taken modulo 2^256 *)
Definition method_id : list Z := firstn 4 (keccak256 (bytes_of "verifyProof(uint256[2],uint256[2][2],uint256[2],uint256[7])")).
Definition U256Bytes (x : Z) : list Z := be_bytes (x mod W).
Definition pack (a : Z * Z) (b : (Z * Z) * (Z * Z)) (c : Z * Z) (input : list Z) : list Z :=
  method_id ++ flat_map U256Bytes ([fst a; snd a; fst (fst b); snd (fst b); fst (snd b); snd (snd b); fst c; snd c] ++ input).
(** go-ethereum: a returned bool; anything but the words 0 and 1 is an error *)
Definition unpack_bool (l : list Z) : option bool :=
  if (List.length l <? 32)%nat then None
  else if be (firstn 32 l) =? 0 then Some false else if be (firstn 32 l) =? 1 then Some true else None.

Section Chain.
Variable machine : list Z -> result. (* a call of the deployed contract without payment *)

(** solidity_groth16.go:381-393 VerifyProof: an answer or an error *)
Definition VerifyProof (a : Z * Z) (b : (Z * Z) * (Z * Z)) (c : Z * Z) (input : list Z) : option bool :=
  match machine (pack a b c input) with RReturn l => unpack_bool l | _ => None end.

(** solidity_groth16_test.go:134-200 TestVerifyProof from the proof bytes on: whether both assertions hold *)
Definition TestVerifyProof (proofBytes : list Z) (publicInfo : PublicInfo) : outcome bool :=
  do abc <- proof_args proofBytes;
  let '(a, b, c) := abc in
  let input := contract_test_input publicInfo in
  let first := VerifyProof a b c input in
  let second := VerifyProof a b c (42 :: tl input) in
  Ret (match first, second with Some true, Some false => true | _, _ => false end).
End Chain.
