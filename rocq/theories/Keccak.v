(** Keccak-256, with which go-ethereum's abi package derives the selector of a contract method (the first four
    bytes of the hash of its signature). *)
From Coq Require Import ZArith Ascii String List.
Import ListNotations.
Open Scope Z_scope.

Definition lane (s : list Z) (x y : nat) : Z := nth (x mod 5 + 5 * (y mod 5)) s 0.
Definition mask : Z := 2 ^ 64 - 1.
Definition rot (a n : Z) : Z := Z.land (Z.lor (Z.shiftl a n) (Z.shiftr a (64 - n))) mask.
(** a state from the lane at each (x, y) *)
Definition make (f : nat -> nat -> Z) : list Z := map (fun i => f (Nat.modulo i 5) (Nat.div i 5)) (seq 0 25).
Definition rho_offsets : list Z :=
  [0; 1; 62; 28; 27; 36; 44; 6; 55; 20; 3; 10; 43; 25; 39; 41; 45; 15; 21; 8; 18; 2; 61; 56; 14].
Definition round_constants : list Z :=
  [0x0000000000000001; 0x0000000000008082; 0x800000000000808A; 0x8000000080008000; 0x000000000000808B; 0x0000000080000001;
   0x8000000080008081; 0x8000000000008009; 0x000000000000008A; 0x0000000000000088; 0x0000000080008009; 0x000000008000000A;
   0x000000008000808B; 0x800000000000008B; 0x8000000000008089; 0x8000000000008003; 0x8000000000008002; 0x8000000000000080;
   0x000000000000800A; 0x800000008000000A; 0x8000000080008081; 0x8000000000008080; 0x0000000080000001; 0x8000000080008008].
Definition theta (s : list Z) : list Z :=
  let c := map (fun x => fold_left (fun a y => Z.lxor a (lane s x y)) (seq 0 5) 0) (seq 0 5) in
  let d := map (fun x => Z.lxor (nth ((x + 4) mod 5) c 0) (rot (nth ((x + 1) mod 5) c 0) 1)) (seq 0 5) in
  make (fun x y => Z.lxor (lane s x y) (nth x d 0)).
Definition rho_pi (s : list Z) : list Z :=
  let r := make (fun x y => rot (lane s x y) (lane rho_offsets x y)) in make (fun x y => lane r (x + 3 * y) x).
Definition chi (s : list Z) : list Z :=
  make (fun x y => Z.lxor (lane s x y) (Z.land (Z.lxor (lane s (x + 1) y) mask) (lane s (x + 2) y))).
Definition iota (rc : Z) (s : list Z) : list Z := make (fun x y => Z.lxor (lane s x y) (if Nat.eqb (x + 5 * y) 0 then rc else 0)).
Definition keccak_f (s : list Z) : list Z := fold_left (fun s rc => iota rc (chi (rho_pi (theta s)))) round_constants s.

(** lanes are little endian *)
Fixpoint le (l : list Z) : Z := match l with [] => 0 | b :: l => b + 256 * le l end.
Definition rate : nat := 136.
Definition absorb (s : list Z) (block : list Z) : list Z :=
  keccak_f (make (fun x y => Z.lxor (lane s x y) (if Nat.ltb (x + 5 * y) 17 then le (firstn 8 (skipn (8 * (x + 5 * y)) block)) else 0))).
Definition pad (m : list Z) : list Z :=
  let q := (rate - Nat.modulo (List.length m) rate)%nat in
  m ++ (if Nat.eqb q 1 then [0x81] else 1 :: repeat 0 (q - 2) ++ [0x80]).
Fixpoint sponge (fuel : nat) (s m : list Z) : list Z :=
  match fuel, m with
  | S f, _ :: _ => sponge f (absorb s (firstn rate m)) (skipn rate m)
  | _, _ => s
  end.
Definition keccak256 (m : list Z) : list Z :=
  let s := sponge (S (List.length m)) (repeat 0 25) (pad m) in
  map (fun i => Z.land (Z.shiftr (nth (Nat.div i 8) s 0) (8 * Z.of_nat (Nat.modulo i 8))) 255) (seq 0 32).
Fixpoint bytes_of (s : string) : list Z := match s with EmptyString => [] | String a s => Z.of_nat (nat_of_ascii a) :: bytes_of s end.

(** known answers: the empty string, the selector of the ERC-20 method transfer *)
Example keccak_empty : keccak256 [] = [0xc5; 0xd2; 0x46; 0x01; 0x86; 0xf7; 0x23; 0x3c; 0x92; 0x7e; 0x7d; 0xb2; 0xdc; 0xc7; 0x03; 0xc0;
  0xe5; 0x00; 0xb6; 0x53; 0xca; 0x82; 0x27; 0x3b; 0x7b; 0xfa; 0xd8; 0x04; 0x5d; 0x85; 0xa4; 0x70].
Proof. vm_compute. reflexivity. Qed.
Example keccak_transfer : firstn 4 (keccak256 (bytes_of "transfer(address,uint256)")) = [0xa9; 0x05; 0x9c; 0xbb].
Proof. vm_compute. reflexivity. Qed.
Example keccak_verify : firstn 4 (keccak256 (bytes_of "verifyProof(uint256[2],uint256[2][2],uint256[2],uint256[7])")) = [0xc8; 0x94; 0xe7; 0x57].
Proof. vm_compute. reflexivity. Qed.
