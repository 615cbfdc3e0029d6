(** proof/poke.go: proofs of (knowledge of) exponent. *)
From Coq Require Import ZArith Bool String List.
From Verif Require Import GoBig FSModel.
Import ListNotations.
Open Scope Z_scope.

(** parameters.go:16-20 *)
Record PublicParameters := { ppN : Z; ppG : Z; ppH : Z }.

(** poke.go:16-23; temp1 and temp2 are fresh big.Ints, 0 when Exp returns nil *)
Definition MultiExp (g x h r n : Z) : outcome Z :=
  let temp1 := exp_recv 0 g x n in
  let temp2 := exp_recv 0 h r n in
  go_mod (temp1 * temp2) n.

(** Int.DivMod(x, y): Euclidean, panics for y = 0 *)
Definition div_mod (x y : Z) : outcome (Z * Z) := do q <- go_div x y; do r <- go_mod x y; Ret (q, r).

(** poke.go:26-29, 63-71, 156-158. Components are present (a nil component would panic). *)
Record PoKEStarProof := { ps_Q : Z; ps_R : Z }.
Record ZKPoKEProof := { zk_z : Z; zk_Ag : Z; zk_Au : Z; zk_Qg : Z; zk_Qu : Z; zk_rx : Z; zk_rrho : Z }.
Record PoEProof := { poe_Q : Z }.

Section Poke.
Variable sha : string -> string.
Variable is_prime : Z -> bool.

(** poke.go:42 / 55 *)
Definition poke_transcript (pp : PublicParameters) (C : Z) : Transcript :=
  InitTranscript ["PoKEStar"%string; dec (ppG pp); dec (ppN pp); dec C] Max252.

(** poke.go:32-47. An error result is None. fuel bounds the search of the prime challenge. *)
Definition PoKEStarProve (fuel : nat) (pp : PublicParameters) (C x : Z) : outcome (option PoKEStarProof) :=
  let temp := exp_recv 0 (ppG pp) x (ppN pp) in
  if negb (temp =? C) then Ret None
  else
    do (l, _) <- GetPrimeChallenge sha is_prime fuel (poke_transcript pp C);
    do (q, r) <- div_mod x l;
    Ret (Some {| ps_Q := exp_recv 0 (ppG pp) q (ppN pp); ps_R := r |}).

(** poke.go:50-60 *)
Definition PoKEStarVerify (fuel : nat) (pp : PublicParameters) (C : Z) (proof : option PoKEStarProof) : outcome bool :=
  match proof with
  | None => Ret false
  | Some pf =>
      do (l, _) <- GetPrimeChallenge sha is_prime fuel (poke_transcript pp C);
      do temp <- MultiExp (ps_Q pf) l (ppG pp) (ps_R pf) (ppN pp);
      Ret (temp =? C)
  end.

(** poke.go:102-103 / 131-132 *)
Definition zkpoke_transcript (pp : PublicParameters) (u w z Ag Au : Z) : Transcript :=
  InitTranscript ["ZKPoKE"%string; dec (ppG pp); dec (ppH pp); dec (ppN pp); dec u; dec w; dec z; dec Ag; dec Au] Max252.

(** poke.go:74-123. The three coins drawn at lines 85-96 are arguments; a failing rand.Reader is not
    modelled. *)
Definition ZKPoKEProve (fuel : nat) (pp : PublicParameters) (u x w : Z) (k rhox rhok : Z)
  : outcome (option ZKPoKEProof) :=
  let temp := exp_recv 0 u x (ppN pp) in
  if negb (temp =? w) then Ret None
  else
    do z <- MultiExp (ppG pp) x (ppH pp) rhox (ppN pp);
    do Ag <- MultiExp (ppG pp) k (ppH pp) rhok (ppN pp);
    let Au := exp_recv 0 u k (ppN pp) in
    let (c, t1) := GetIntChallenge sha (zkpoke_transcript pp u w z Ag Au) in
    do (l, _) <- GetPrimeChallenge sha is_prime fuel t1;
    let sx := c * x + k in
    let srho := c * rhox + rhok in
    do (qx, rx) <- div_mod sx l;
    do (qrho, rrho) <- div_mod srho l;
    do Qg <- MultiExp (ppG pp) qx (ppH pp) qrho (ppN pp);
    let Qu := exp_recv 0 u qx (ppN pp) in
    Ret (Some {| zk_z := z; zk_Ag := Ag; zk_Au := Au; zk_Qg := Qg; zk_Qu := Qu; zk_rx := rx; zk_rrho := rrho |}).

(** the coins of lines 82-96: b = N << (2*128-2), rand.Int in [0, b) *)
Definition zkpoke_coin_bound (pp : PublicParameters) : Z := Z.shiftl (ppN pp) (2 * 128 - 2).

(** poke.go:126-153 *)
Definition ZKPoKEVerify (fuel : nat) (pp : PublicParameters) (u w : Z) (proof : option ZKPoKEProof) : outcome bool :=
  match proof with
  | None => Ret false
  | Some pf =>
      let (c, t1) := GetIntChallenge sha (zkpoke_transcript pp u w (zk_z pf) (zk_Ag pf) (zk_Au pf)) in
      do (l, _) <- GetPrimeChallenge sha is_prime fuel t1;
      let lhs := exp_recv 0 (zk_Qg pf) l (ppN pp) in
      do me <- MultiExp (ppG pp) (zk_rx pf) (ppH pp) (zk_rrho pf) (ppN pp);
      do lhs <- go_mod (lhs * me) (ppN pp);
      let rhs := exp_recv 0 (zk_z pf) c (ppN pp) in
      do rhs <- go_mod (rhs * zk_Ag pf) (ppN pp);
      if negb (lhs =? rhs) then Ret false
      else
        do lhs <- MultiExp (zk_Qu pf) l u (zk_rx pf) (ppN pp);
        let rhs := exp_recv rhs w c (ppN pp) in          (* line 149 reuses rhs as receiver *)
        do rhs <- go_mod (rhs * zk_Au pf) (ppN pp);
        Ret (lhs =? rhs)
  end.

(** poke.go:170 / 183 *)
Definition poe_transcript (base mod_ C x : Z) : Transcript :=
  InitTranscript ["PoE"%string; dec base; dec mod_; dec C; dec x] Max252.

(** poke.go:161-175 *)
Definition PoEProve (fuel : nat) (base mod_ C x : Z) : outcome (option PoEProof) :=
  let temp := exp_recv 0 base x mod_ in
  if negb (temp =? C) then Ret None
  else
    do (l, _) <- GetPrimeChallenge sha is_prime fuel (poe_transcript base mod_ C x);
    do q <- go_div x l;
    Ret (Some {| poe_Q := exp_recv 0 base q mod_ |}).

(** poke.go:178-188 *)
Definition PoEVerify (fuel : nat) (base mod_ C x : Z) (proof : option PoEProof) : outcome bool :=
  match proof with
  | None => Ret false
  | Some pf =>
      do (l, _) <- GetPrimeChallenge sha is_prime fuel (poe_transcript base mod_ C x);
      do r <- go_mod x l;
      do temp <- MultiExp (poe_Q pf) l base r mod_;
      Ret (temp =? C)
  end.
End Poke.
