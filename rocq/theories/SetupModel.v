(** Model of the hidden order group generation (/repo/accumulator/common.go:230-410).

    External functions are section variables:
    is_prime  big.Int.ProbablyPrime(64)
    jacobi    big.Jacobi (second argument odd)
    Random draws are lists: what crand.Prime(crand.Reader, 1023) and crand.Int(crand.Reader, Min2048)
    return, in order; a list that is used up stands for a search still running. Printing is not
    modelled, the printed numbers are the result. An error of crand (a panic) is not modelled. *)
From Coq Require Import ZArith Bool List.
From Verif Require Import GoBig.
Import ListNotations.
Open Scope Z_scope.

(** common.go:285-293 getOrder *)
Definition getOrder (p q : Z) : Z := ediv (p - 1) 2 * ediv (q - 1) 2.

(** common.go:295-304 testRemainder: both branches return true *)
Definition testRemainder (input modulo : Z) : bool :=
  let cmp := ediv (modulo - 1) 2 in
  let remainder := emod input modulo in
  if negb (remainder =? cmp) then true else true.

(** common.go:43-53 and 308-344 safePrimeSieve *)
Definition sieve_primes : list Z := [3; 5; 7; 11; 13; 17; 19; 23; 29; 31; 37].
Definition safePrimeSieve (input : Z) : bool := forallb (testRemainder input) sieve_primes.

Section Setup.
Variable is_prime : Z -> bool.
Variable jacobi : Z -> Z -> Z.

(** common.go:346-364 getSuitablePrime; also returns the draws left *)
Fixpoint getSuitablePrime (draws : list Z) : outcome (Z * list Z) :=
  match draws with
  | [] => OutOfFuel
  | ranNum :: rest =>
      if safePrimeSieve ranNum then
        if is_prime ranNum then Ret (ranNum, rest) else getSuitablePrime rest
      else getSuitablePrime rest
  end.

(** common.go:367-383 getSafePrime; every round uses up a draw, so [length draws] rounds are enough *)
Fixpoint safe_loop (fuel : nat) (draws : list Z) : outcome (Z * list Z) :=
  match fuel with
  | O => OutOfFuel
  | S f =>
      do (ranNum, rest) <- getSuitablePrime draws;
      let ranNum := ranNum * 2 + 1 in
      if is_prime ranNum then Ret (ranNum, rest) else safe_loop f rest
  end.
Definition getSafePrime (draws : list Z) : outcome (Z * list Z) := safe_loop (length draws) draws.

(** common.go:405-410 isQR *)
Definition isQR (input p q : Z) : bool := (jacobi input p =? 1) && (jacobi input q =? 1).

(** common.go:385-403 getRanQR *)
Fixpoint getRanQR (draws : list Z) (p q : Z) : outcome Z :=
  match draws with
  | [] => OutOfFuel
  | ranNum :: rest => if isQR ranNum p q then Ret ranNum else getRanQR rest p q
  end.

(** common.go:231-251 TrustedSetupForQRN: (N, g, h); rnd is the draw of line 241 *)
Definition TrustedSetupForQRN (primes ints : list Z) (rnd : Z) : outcome (Z * Z * Z) :=
  do (p, rest) <- getSafePrime primes;
  do (q, _) <- getSafePrime rest;
  let N := p * q in
  do g <- getRanQR ints p q;
  do randomNum <- go_mod rnd (getOrder p q);
  let h := exp_recv 0 g randomNum N in
  Ret (N, g, h).
End Setup.
