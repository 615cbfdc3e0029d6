(** Where the random numbers come from: crypto/rand.Int on a byte source, and the functions of the
    project that draw with it.

    The source (rand.Reader) is the string of the bytes it is going to deliver; reading past its end is
    the error of io.ReadFull. So a statement about all sources covers a failing one at any point. *)
From Coq Require Import ZArith Bool String Ascii List.
From Verif Require Import GoBig HashModel PokeModel SquaresModel RangeModel.
Import ListNotations.
Open Scope Z_scope.

(** io.ReadFull of k bytes: the bytes read and the remaining source; None is an error *)
Fixpoint read_full (k : nat) (src : string) : option (string * string) :=
  match k, src with
  | O, _ => Some (EmptyString, src)
  | S k', String a r => match read_full k' r with Some (b, r') => Some (String a b, r') | None => None end
  | S _, EmptyString => None
  end.

(** bytes[0] &= uint8(int(1<<b) - 1) *)
Definition mask_first (b : Z) (s : string) : string :=
  match s with
  | EmptyString => EmptyString
  | String a r => String (ascii_of_N (Z.to_N (Z.land (byte_val a) (Z.shiftl 1 b - 1)))) r
  end.

(** crypto/rand/util.go Int (standard library), the loop: one read per round. Every round consumes at
    least one byte, so [fuel = length of the source + 1] is never exhausted (RandProofs.rand_fuel). *)
Fixpoint rand_loop (fuel : nat) (k : nat) (b max : Z) (src : string) : outcome (option (Z * string)) :=
  match fuel with
  | O => OutOfFuel
  | S f =>
      match read_full k src with
      | None => Ret None
      | Some (bytes, rest) =>
          let n := set_bytes (mask_first b bytes) in
          if n <? max then Ret (Some (n, rest)) else rand_loop f k b max rest
      end
  end.
(** crypto/rand/util.go Int: panics for max <= 0; None is an error of the source *)
Definition rand_Int (src : string) (max : Z) : outcome (option (Z * string)) :=
  if max <=? 0 then Panic
  else
    let bitLen := bit_len (max - 1) in
    if bitLen =? 0 then Ret (Some (0, src))
    else
      let k := (bitLen + 7) / 8 in
      let b := if bitLen mod 8 =? 0 then 8 else bitLen mod 8 in
      rand_loop (S (String.length src)) (Z.to_nat k) b max src.

(** zkacc.go:11-17 GenRandomizer *)
Definition GenRandomizer (src : string) : outcome (Z * string) :=
  do r <- rand_Int src Min2048;
  match r with Some v => Ret v | None => Panic end.

(** common.go:253-266 RandomSetupForUniversalHash after getPrime256: the values printed for A and B *)
Definition RandomSetupForUniversalHash_AB (p : Z) (src : string) : outcome (Z * Z * string) :=
  do a <- rand_Int src p;
  match a with
  | None => Panic
  | Some (a, src) =>
      do b <- rand_Int src p;
      match b with None => Panic | Some (b, src) => Ret (a, b, src) end
  end.

(** drawing with an error result *)
Definition draw (A : Type) := string -> outcome (option (A * string)).
Definition bind_draw {A B} (d : draw A) (f : A -> draw B) : draw B :=
  fun src => do r <- d src; match r with None => Ret None | Some (a, src') => f a src' end.
Definition ret_draw {A} (a : A) : draw A := fun src => Ret (Some (a, src)).

(** parameters.go:111-121 freshRandCoin *)
Definition freshRandCoin (n : Z) : draw Z := fun src => rand_Int src (n + 1).
(** parameters.go:100-108 newThreeRandCoins, 89-97 newFourRandCoins *)
Definition newThreeRandCoins (n : Z) : draw Int3 :=
  bind_draw (freshRandCoin n) (fun c0 => bind_draw (freshRandCoin n) (fun c1 => bind_draw (freshRandCoin n) (fun c2 =>
    ret_draw (c0, c1, c2)))).
Definition newFourRandCoins (n : Z) : draw Int4 :=
  bind_draw (freshRandCoin n) (fun c0 => bind_draw (freshRandCoin n) (fun c1 => bind_draw (freshRandCoin n) (fun c2 =>
    bind_draw (freshRandCoin n) (fun c3 => ret_draw (c0, c1, c2, c3))))).

Definition securityParam : Z := 128.    (* parameters.go:10 *)
Definition zkAoPB : Z := 4096.          (* zkaop.go:18 *)
Definition rpB : Z := 4096.             (* range_proof.go:19 *)
(** zkaop.go:211-215 and range_proof.go:257-261 *)
Definition mLmt (B : Z) : Z := 2 ^ (Z.shiftl securityParam 1 + B).
(** zkaop.go:223-225 and range_proof.go:269-271 *)
Definition sLmt (pp : PublicParameters) : Z := 4 ^ securityParam * ppN pp.

(** zkaop.go:185, 217, 227, 232-234: the coins of one Prove, in the order they are drawn *)
Definition aop_draw (pp : PublicParameters) : draw aop_coins :=
  bind_draw (newThreeRandCoins (ppN pp)) (fun rc =>
  bind_draw (newThreeRandCoins (mLmt zkAoPB)) (fun m3 =>
  bind_draw (newThreeRandCoins (sLmt pp)) (fun s3 =>
  bind_draw (freshRandCoin (Z.shiftl (sLmt pp) (zkAoPB / 2))) (fun s =>
    ret_draw {| ac_r3 := rc; ac_m3 := m3; ac_s3 := s3; ac_s := s |})))).
(** range_proof.go:231, 263, 273, 278-280 *)
Definition rp_draw (pp : PublicParameters) : draw rp_coins :=
  bind_draw (newThreeRandCoins (ppN pp)) (fun rc =>
  bind_draw (newFourRandCoins (mLmt rpB)) (fun m4 =>
  bind_draw (newFourRandCoins (sLmt pp)) (fun s4 =>
  bind_draw (freshRandCoin (Z.shiftl (sLmt pp) rpB)) (fun sigma =>
    ret_draw {| rc_r3 := rc; rc_m4 := m4; rc_s4 := s4; rc_sigma := sigma |})))).
(** poke.go:82-96: k, rhox, rhok below b = N << (2*128-2) *)
Definition zkpoke_draw (pp : PublicParameters) : draw (Z * Z * Z) :=
  let coin : draw Z := fun src => rand_Int src (zkpoke_coin_bound pp) in
  bind_draw coin (fun k => bind_draw coin (fun rhox => bind_draw coin (fun rhok => ret_draw (k, rhox, rhok)))).
