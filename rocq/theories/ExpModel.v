(** accumulator/mulexp.go: SimpleExp, GCB and CommonBits, on the words of a big.Int. *)
From Coq Require Import ZArith Bool Lia List.
From Verif Require Import GoBig.
Import ListNotations.
Open Scope Z_scope.

(** Int.Bits on a 64-bit machine: the words of |x|, least significant first, no leading zero word.
    (math/big; big.Word is uint, 64 bits wide) *)
Definition word_base : Z := 2 ^ 64.
Fixpoint words_of (fuel : nat) (x : Z) : list Z :=
  match fuel with
  | O => []
  | S f => if x =? 0 then [] else (x mod word_base) :: words_of f (x / word_base)
  end.
Definition big_bits (x : Z) : list Z := words_of (Z.to_nat (bit_len x)) (Z.abs x).
(** the integer a slice of words stands for *)
Fixpoint words_val (ws : list Z) : Z :=
  match ws with [] => 0 | w :: r => w + word_base * words_val r end.

(** mulexp.go:27-35: the inner loop over j from 0 to 63; state (output, gCopy).
    [uint(1<<j)] is 2^j and [w & mask == mask] tests bit j of the word. *)
Definition simple_exp_bit (n w : Z) (j : nat) (st : Z * Z) : Z * Z :=
  let '(output, gCopy) := st in
  ((if Z.testbit w (Z.of_nat j) then emod (output * gCopy) n else output), emod (gCopy * gCopy) n).
Definition simple_exp_word (n w : Z) (st : Z * Z) : Z * Z :=
  fold_left (fun st j => simple_exp_bit n w j st) (seq 0 64) st.

(** mulexp.go:25-37: the outer loop. [i += 64] at the end of the body and [i++] in the header add
    up to steps of 65. *)
Fixpoint simple_exp_loop (fuel : nat) (n bitLen : Z) (bits : list Z) (i : Z) (st : Z * Z)
  : outcome (Z * Z) :=
  match fuel with
  | O => OutOfFuel
  | S f =>
      if i <? bitLen then
        let chunk := i / 64 in
        do w <- go_index bits (Z.to_nat chunk);
        simple_exp_loop f n bitLen bits (i + 64 + 1) (simple_exp_word n w st)
      else Ret st
  end.

(** mulexp.go:11-40. The call multiexp.DoubleExp at line 38 has no effect on the result: it is left
    out (that library call is assumed to return). *)
Definition SimpleExp (g x n : Z) : outcome Z :=
  if (g <=? 1) || (n <=? 1) || (x <? 1) then Panic
  else
    let bitLen := bit_len x in
    do (output, _) <- simple_exp_loop (Z.to_nat bitLen + 1) n bitLen (big_bits x) 0 (1, g);
    Ret output.

(** mulexp.go:67-79 *)
Definition common_bits_step (a b : Z) (ret : Z) (i : nat) : Z :=
  if Z.testbit a (Z.of_nat i) && Z.testbit b (Z.of_nat i) then Z.lor ret (2 ^ Z.of_nat i) else ret.
Definition CommonBits (a b : Z) : Z := fold_left (common_bits_step a b) (seq 0 32) 0.

(** mulexp.go:45-64, a and b two different big.Ints. a.Bits() shares the words of a, so the
    subtractions at lines 58-59 write into the arguments; the subtraction is on 64-bit words. The
    result is (words of ret, words of a afterwards, words of b afterwards); SetBits at line 62
    normalises ret only. The loop runs over the indices below the shorter length. *)
Definition word_sub (x y : Z) : Z := (x - y) mod word_base.
Fixpoint gcb_loop (wa wb : list Z) : list Z * list Z * list Z :=
  match wa, wb with
  | a :: ra, b :: rb =>
      let c := CommonBits a b in
      let '(rc, ra', rb') := gcb_loop ra rb in
      (c :: rc, word_sub a c :: ra', word_sub b c :: rb')
  | _, _ => ([], wa, wb)
  end.
Definition GCB (a b : Z) : Z * list Z * list Z :=
  let '(rc, a', b') := gcb_loop (big_bits a) (big_bits b) in (words_val rc, a', b').

(** GCB(a, a): both slices are the same memory, every word is reduced twice (lines 58-59). *)
Fixpoint gcb_same_loop (wa : list Z) : list Z * list Z :=
  match wa with
  | a :: ra =>
      let c := CommonBits a a in
      let '(rc, ra') := gcb_same_loop ra in
      (c :: rc, word_sub (word_sub a c) c :: ra')
  | [] => ([], [])
  end.
Definition GCB_same (a : Z) : Z * list Z :=
  let '(rc, a') := gcb_same_loop (big_bits a) in (words_val rc, a').
