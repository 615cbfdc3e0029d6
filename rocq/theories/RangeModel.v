(** proof/zkaop.go (argument of positivity) and proof/range_proof.go (range proof).

    Exp returns nil when a negative exponent meets a base that is not invertible; [deref] marks the
    places where that nil is used as an operand (a run-time panic). The random coins are arguments of
    the provers (drawn with freshRandCoin from [0, limit], parameters.go:89-120; a failing random
    source is not modelled). The values borrowed from iPool are written before they are read; the
    places where that is not so are marked. Concurrent reuse of pooled values is the subject of
    PoolModel.v. *)
From Coq Require Import ZArith Bool String List.
From Verif Require Import GoBig FSModel PokeModel SquaresModel.
Import ListNotations.
Open Scope Z_scope.

(** a loop over the three (four) components *)
Definition each3 (f : Z -> Z -> outcome Z) (a b : Int3) : outcome Int3 :=
  let '(a0, a1, a2) := a in let '(b0, b1, b2) := b in
  do x0 <- f a0 b0; do x1 <- f a1 b1; do x2 <- f a2 b2; Ret (x0, x1, x2).
Definition each4 (f : Z -> Z -> outcome Z) (a b : Int4) : outcome Int4 :=
  let '(a0, a1, a2, a3) := a in let '(b0, b1, b2, b3) := b in
  do x0 <- f a0 b0; do x1 <- f a1 b1; do x2 <- f a2 b2; do x3 <- f a3 b3; Ret (x0, x1, x2, x3).
Definition fold3 (f : Z -> Z -> Z -> outcome Z) (d : Z) (a b : Int3) : outcome Z :=
  let '(a0, a1, a2) := a in let '(b0, b1, b2) := b in
  do d <- f d a0 b0; do d <- f d a1 b1; f d a2 b2.

(** res.Exp(g, x, n); res.Mul(res, opt.Exp(h, r, n)); res.Mod(res, n) *)
Definition commit2 (g x h r n : Z) : outcome Z :=
  do u <- deref (big_exp g x n); do v <- deref (big_exp h r n); go_mod (u * v) n.
(** d.Mul(d, opt.Exp(c, m, n)); d.Mod(d, n) *)
Definition mul_exp (n d c m : Z) : outcome Z := do v <- deref (big_exp c m n); go_mod (d * v) n.

(** range_proof.go:188-195 *)
Definition calC (pp : PublicParameters) (r x : Z) : outcome Z := commit2 (ppG pp) x (ppH pp) r (ppN pp).
(** zkaop.go:197-206 and range_proof.go:243-252 (same body) *)
Definition commitFromTS (pp : PublicParameters) (coins ts : Int3) : outcome Int3 :=
  each3 (fun t r => commit2 (ppG pp) t (ppH pp) r (ppN pp)) ts coins.

Definition statement_string : string := "c = (g^x)(h^r), x is non-negative".   (* zkaop.go:14, range_proof.go:14 *)

Section Range.
Variable sha : string -> string.
(** ThreeSquares as a function of one call; its possible results are given by SquaresModel *)
Variable ThreeSquares : Z -> outcome Int3.

(** ** Argument of positivity *)

(** zkaop.go:63-91 *)
Definition aop_challenge (pp : PublicParameters) (c3 : Int3) : Z :=
  let '(c0, c1, c2) := c3 in
  set_bytes (sha (written [statement_string; dec (ppG pp); dec (ppH pp); dec (ppN pp); dec c0; dec c1; dec c2])).

(** zkaop.go:101-127 and 403-422: the concatenation of the hashes (each copied into its 32 bytes) *)
Definition aop_commitment (d3 : Int3) (d : Z) : string :=
  let '(d0, d1, d2) := d3 in
  written [sha (big_bytes d0); sha (big_bytes d1); sha (big_bytes d2); sha (big_bytes d)].

Record aop_response := { ar_Z3 : Int3; ar_T3 : Int3; ar_T : Z }.      (* zkaop.go:94-98 *)
Record aop_proof := { ap_commit3 : Int3; ap_commitment : string; ap_response : aop_response }. (* zkaop.go:21-30 *)
(** coins: r3 (191), m3 (217), s3 (227), s (234) *)
Record aop_coins := { ac_r3 : Int3; ac_m3 : Int3; ac_s3 : Int3; ac_s : Z }.

(** zkaop.go:154-194, 209-276, 285-316. The prover's C is returned with the proof. *)
Definition AoP_Prove (pp : PublicParameters) (r x : Z) (k : aop_coins) : outcome (Z * aop_proof) :=
  do C <- calC pp r x;
  (* commitForX *)
  do ts <- ThreeSquares (Z.shiftl x 2 + 1);
  do c3 <- commitFromTS pp (ac_r3 k) ts;
  (* commit *)
  do d3 <- each3 (fun m s => commit2 (ppG pp) m (ppH pp) s (ppN pp)) (ac_m3 k) (ac_s3 k);
  do d <- fold3 (mul_exp (ppN pp)) 1 c3 (ac_m3 k);
  (* 271-274: a nil result of Exp would be dereferenced by Mul *)
  do d <- mul_exp (ppN pp) d (ppH pp) (ac_s k);
  let commitment := aop_commitment d3 d in
  (* response *)
  let e := aop_challenge pp c3 in
  let '(x0, x1, x2) := ts in
  let '(r0, r1, r2) := ac_r3 k in
  let '(m0, m1, m2) := ac_m3 k in
  let '(s0, s1, s2) := ac_s3 k in
  let z3 := (e * x0 + m0, e * x1 + m1, e * x2 + m2) in
  let t3 := (e * r0 + s0, e * r1 + s1, e * r2 + s2) in
  let t := (Z.shiftl r 2 - x0 * r0 - x1 * r1 - x2 * r2) * e + ac_s k in
  Ret (C, {| ap_commit3 := c3; ap_commitment := commitment; ap_response := {| ar_Z3 := z3; ar_T3 := t3; ar_T := t |} |}).

(** zkaop.go:359-424. [junk] is the content of the pooled big.Int of line 391: line 395 leaves it in
    place when Exp returns nil. *)
Definition AoP_VerifyResponse (pp : PublicParameters) (c : Z) (c3 : Int3) (commitment : string) (resp : aop_response)
  (junk : Z) : outcome bool :=
  let N := ppN pp in
  let e := aop_challenge pp c3 in
  let negE := - e in
  let first z t ci :=
    do u <- deref (big_exp (ppG pp) z N); do v <- deref (big_exp (ppH pp) t N); do w <- deref (big_exp ci negE N);
    go_mod (u * v * w) N in
  let '(z0, z1, z2) := ar_Z3 resp in
  let '(t0, t1, t2) := ar_T3 resp in
  let '(c0, c1, c2) := c3 in
  do p0 <- first z0 t0 c0; do p1 <- first z1 t1 c1; do p2 <- first z2 t2 c2;
  do lastH <- fold3 (mul_exp N) 1 c3 (ar_Z3 resp);
  let hp := exp_recv junk (ppH pp) (ar_T resp) N in
  do cp <- deref (big_exp c (Z.shiftl negE 2) N);
  do hp <- go_mod (hp * cp) N;
  do lastH <- go_mod (lastH * hp) N;
  do lastH <- mul_exp N lastH (ppG pp) negE;
  Ret (aop_commitment (p0, p1, p2) lastH =? commitment)%string.

(** zkaop.go:319-346: the verifier object; c3 is unset in a new one *)
Record aop_verifier := { av_pp : PublicParameters; av_c : Z; av_c3 : option Int3; av_commitment : string }.
Definition NewZKAoPVerifier (pp : PublicParameters) (c : Z) : aop_verifier :=
  {| av_pp := pp; av_c := c; av_c3 := None; av_commitment := "" |}.
Definition AoP_Verify (v : aop_verifier) (pf : aop_proof) (junk : Z) : outcome bool * aop_verifier :=
  let v' := {| av_pp := av_pp v; av_c := av_c v; av_c3 := Some (ap_commit3 pf); av_commitment := ap_commitment pf |} in
  (do c3 <- deref (av_c3 v');
   AoP_VerifyResponse (av_pp v') (av_c v') c3 (av_commitment v') (ap_response pf) junk, v').

(** ** Range proof *)

(** range_proof.go:70-100 *)
Definition rp_challenge (pp : PublicParameters) (a b : Z) (c3 : Int3) : Z :=
  let '(c0, c1, c2) := c3 in
  set_bytes (sha (written [statement_string; dec (ppG pp); dec (ppH pp); dec (ppN pp); dec a; dec b; dec c0; dec c1; dec c2])).
(** range_proof.go:110-136 and 463-482 *)
Definition rp_commitment (d4 : Int4) (d : Z) : string :=
  let '(d0, d1, d2, d3) := d4 in
  written [sha (big_bytes d0); sha (big_bytes d1); sha (big_bytes d2); sha (big_bytes d3); sha (big_bytes d)].

Record rp_response := { rr_Z4 : Int4; rr_T4 : Int4; rr_TAU : Z }.     (* range_proof.go:103-107 *)
Record rp_proof := { rp_c : Z; rp_commit3 : Int3; rp_commit : string; rp_resp : rp_response }.  (* 22-33 *)
(** coins: rc (231), m4 (263), s4 (273), sigma (280) *)
Record rp_coins := { rc_r3 : Int3; rc_m4 : Int4; rc_s4 : Int4; rc_sigma : Z }.

(** range_proof.go:198-207 *)
Definition calCa (pp : PublicParameters) (a c : Z) : outcome Z :=
  do opt <- deref (big_exp (ppG pp) (- a) (ppN pp));
  deref (big_exp (c * opt) 4 (ppN pp)).

(** range_proof.go:305-327 *)
Definition secondPartH (pp : PublicParameters) (sigma ca : Z) (c3 : Int3) (m : Int4) : outcome Z :=
  let '(m0, m1, m2, m3) := m in
  do result <- deref (big_exp (ppH pp) sigma (ppN pp));
  let opt := exp_recv 0 ca m0 (ppN pp) in       (* coins are not negative: never nil *)
  do result <- go_mod (result * opt) (ppN pp);
  fold3 (mul_exp (ppN pp)) result c3 (- m1, - m2, - m3).

(** range_proof.go:167-185, 210-240, 255-302, 336-372 *)
Definition RP_Prove (pp : PublicParameters) (r a b x : Z) (k : rp_coins) : outcome rp_proof :=
  do c <- calC pp r x;
  do ca <- calCa pp a c;
  (* commitForX *)
  do ts <- ThreeSquares (Z.shiftl ((b - x) * (x - a)) 2 + 1);
  do c3 <- commitFromTS pp (rc_r3 k) ts;
  (* commit *)
  do d4 <- each4 (fun m s => commit2 (ppG pp) m (ppH pp) s (ppN pp)) (rc_m4 k) (rc_s4 k);
  do d <- secondPartH pp (rc_sigma k) ca c3 (rc_m4 k);
  let commitment := rp_commitment d4 d in
  (* response: x4 = (b - x, ts), r4 = (-r, coins) *)
  let e := rp_challenge pp a b c3 in
  let '(x1, x2, x3) := ts in let x0 := b - x in
  let '(r1, r2, r3) := rc_r3 k in let r0 := - r in
  let '(m0, m1, m2, m3) := rc_m4 k in
  let '(s0, s1, s2, s3) := rc_s4 k in
  let z4 := (e * x0 + m0, e * x1 + m1, e * x2 + m2, e * x3 + m3) in
  let t4 := (e * r0 + s0, e * r1 + s1, e * r2 + s2, e * r3 + s3) in
  let sumXR := 0 + x1 * r1 + x2 * r2 + x3 * r3 in
  let tau := (Z.shiftl (x0 * r0) 2 + sumXR) * e + rc_sigma k in
  Ret {| rp_c := c; rp_commit3 := c3; rp_commit := commitment; rp_resp := {| rr_Z4 := z4; rr_T4 := t4; rr_TAU := tau |} |}.

(** range_proof.go:425-484, with c4 = (c0, c3) *)
Definition RP_VerifyResponse (pp : PublicParameters) (a b ca : Z) (c4 : Int4) (commitment : string) (resp : rp_response)
  : outcome bool :=
  let N := ppN pp in
  let '(c0, c1, c2, c3) := c4 in
  let c := rp_challenge pp a b (c1, c2, c3) in
  let negC := - c in
  let first z t ci :=
    do u <- deref (big_exp (ppG pp) z N); do v <- deref (big_exp (ppH pp) t N); do w <- deref (big_exp ci negC N);
    go_mod (u * v * w) N in
  let '(z0, z1, z2, z3) := rr_Z4 resp in
  let '(t0, t1, t2, t3) := rr_T4 resp in
  do p0 <- first z0 t0 c0; do p1 <- first z1 t1 c1; do p2 <- first z2 t2 c2; do p3 <- first z3 t3 c3;
  do lastH <- deref (big_exp (ppH pp) (rr_TAU resp) N);
  do lastH <- mul_exp N lastH (ppG pp) c;
  do lastH <- mul_exp N lastH ca z0;
  do lastH <- fold3 (mul_exp N) lastH (c1, c2, c3) (- z1, - z2, - z3);
  Ret (rp_commitment (p0, p1, p2, p3) lastH =? commitment)%string.

(** range_proof.go:375-412: the verifier object. c4[0] may be left nil by a failed inversion. *)
Record rp_verifier := { rv_pp : PublicParameters; rv_a : Z; rv_b : Z;
  rv_c0 : option Z; rv_c3 : option Int3; rv_ca : option Z; rv_commitment : string }.
Definition NewRPVerifier (pp : PublicParameters) (a b : Z) : rp_verifier :=
  {| rv_pp := pp; rv_a := a; rv_b := b; rv_c0 := None; rv_c3 := None; rv_ca := None; rv_commitment := "" |}.

Definition set_c0 (v : rp_verifier) c0 := {| rv_pp := rv_pp v; rv_a := rv_a v; rv_b := rv_b v; rv_c0 := c0;
  rv_c3 := rv_c3 v; rv_ca := rv_ca v; rv_commitment := rv_commitment v |}.
Definition set_rest (v : rp_verifier) c3 ca cm := {| rv_pp := rv_pp v; rv_a := rv_a v; rv_b := rv_b v; rv_c0 := rv_c0 v;
  rv_c3 := Some c3; rv_ca := ca; rv_commitment := cm |}.

Definition RP_Verify (v : rp_verifier) (pf : rp_proof) : outcome bool * rp_verifier :=
  let pp := rv_pp v in let N := ppN pp in
  match mod_inverse (rp_c pf) N with
  | None => (Panic, set_c0 v None)                       (* 397, 400: Mul on a nil receiver *)
  | Some inv =>
      match (do gb <- deref (big_exp (ppG pp) (rv_b v) N); go_mod (inv * gb) N) with
      | Ret c0 =>
          let v1 := set_c0 v (Some c0) in
          let opt := exp_recv (- rv_a v) (ppG pp) (- rv_a v) N in     (* 405-406: opt is -a before *)
          match (do ca <- go_mod (rp_c pf * opt) N; Ret (exp_recv 0 ca 4 N)) with
          | Ret ca =>
              let v2 := set_rest v1 (rp_commit3 pf) (Some ca) (rp_commit pf) in
              (match rv_c0 v2, rv_c3 v2, rv_ca v2 with
               | Some c0, Some (c1, c2, c3), Some ca =>
                   RP_VerifyResponse pp (rv_a v2) (rv_b v2) ca (c0, c1, c2, c3) (rv_commitment v2) (rp_resp pf)
               | _, _, _ => Panic
               end, v2)
          | _ => (Panic, v1)
          end
      | _ => (Panic, set_c0 v (Some inv))
      end
  end.
End Range.
