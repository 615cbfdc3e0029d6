(** The remaining responses of the positivity and range proofs (C79): the t parts and the last number. *)
From Coq Require Import ZArith Zpow_facts Bool Lia String Ascii List.
From Verif Require Import GoBig GoBigFacts Spec StrFacts FSModel PokeModel PokeProofs SquaresModel RangeModel RangeProofs
  HashModel PropertiesHash PropertiesPoke PropertiesRange SecurityProofs RandModel PropertiesHiding.
Import ListNotations.
Open Scope Z_scope.

Definition with_s (k : aop_coins) (s : Z) : aop_coins := {| ac_r3 := ac_r3 k; ac_m3 := ac_m3 k; ac_s3 := ac_s3 k; ac_s := s |}.
Definition with_s4 (k : rp_coins) (s : Int4) : rp_coins := {| rc_r3 := rc_r3 k; rc_m4 := rc_m4 k; rc_s4 := s; rc_sigma := rc_sigma k |}.
Definition with_sigma (k : rp_coins) (s : Z) : rp_coins := {| rc_r3 := rc_r3 k; rc_m4 := rc_m4 k; rc_s4 := rc_s4 k; rc_sigma := s |}.
(** number of coins in [0, limit] that pass a test *)
Definition hits1 (E : Z -> bool) (limit : Z) : Z := sum (fun s => ind (E s)) (Z.to_nat (limit + 1)).

Lemma sum_shift_any : forall f B a M, (forall m, 0 <= f m <= B) -> Z.abs (sum (fun m => f (a + m)) M - sum f M) <= Z.abs a * B.
Proof.
  intros f B a M H. destruct (Z.le_ge_cases 0 a) as [Ha|Ha].
  - rewrite (Z.abs_eq a) by lia. now apply sum_shift.
  - pose proof (sum_shift (fun m => f (a + m)) B (- a) M ltac:(intros; apply H) ltac:(lia)) as S.
    rewrite (sum_ext (fun m => f (a + (- a + m))) f) in S by (intros m _; f_equal; lia). rewrite (Z.abs_neq a) by lia. lia.
Qed.
Lemma hits1_shift : forall E limit a, Z.abs (hits1 (fun s => E (a + s)) limit - hits1 E limit) <= Z.abs a.
Proof.
  intros E limit a. unfold hits1. rewrite <- (Z.mul_1_r (Z.abs a)). apply (sum_shift_any (fun s => ind (E s))). intros. apply ind_bound.
Qed.
(** the first component may be moved either way *)
Lemma hits4_shift_any : forall E limit a b c d, 0 <= limit -> 0 <= b -> 0 <= c -> 0 <= d ->
  Z.abs (hits4 (fun '(m0, m1, m2, m3) => E (a + m0, b + m1, c + m2, d + m3)) limit - hits4 E limit) <= (Z.abs a + b + c + d) * (limit + 1) ^ 3.
Proof.
  intros E limit a b c d HL Hb Hc Hd. destruct (Z.le_ge_cases 0 a) as [Ha|Ha]; [rewrite (Z.abs_eq a) by lia; now apply hits4_shift|].
  set (F := fun '(m0, m1, m2, m3) => E (a + m0, m1, m2, m3)).
  pose proof (hits4_shift F limit 0 b c d HL ltac:(lia) Hb Hc Hd) as S1. pose proof (hits4_shift F limit (- a) 0 0 0 HL ltac:(lia) ltac:(lia) ltac:(lia) ltac:(lia)) as S2.
  assert (E1 : hits4 (fun '(m0, m1, m2, m3) => F (0 + m0, b + m1, c + m2, d + m3)) limit = hits4 (fun '(m0, m1, m2, m3) => E (a + m0, b + m1, c + m2, d + m3)) limit).
  { unfold hits4. do 4 (apply sum_ext; intros ? _). unfold F. f_equal. }
  assert (E2 : hits4 (fun '(m0, m1, m2, m3) => F (- a + m0, 0 + m1, 0 + m2, 0 + m3)) limit = hits4 E limit).
  { unfold hits4. apply sum_ext. intros m0 _. do 3 (apply sum_ext; intros ? _). unfold F. rewrite !Z.add_0_l. replace (a + (- a + m0)) with m0 by lia. reflexivity. }
  rewrite E1 in S1. rewrite E2 in S2. rewrite (Z.abs_neq a) by lia. revert S1 S2. generalize ((limit + 1) ^ 3). intros P. clear. lia.
Qed.
(** the bound is attained: exactly |a| of the coins (or all) put a + s outside of [0, limit] *)
Lemma hits1_outside : forall limit a, 0 <= limit -> hits1 (fun s => negb ((0 <=? a + s) && (a + s <=? limit))) limit = Z.min (Z.abs a) (limit + 1).
Proof.
  intros limit a HL. unfold hits1.
  assert (G : forall n : nat, Z.of_nat n <= limit + 1 -> sum (fun s => ind (negb ((0 <=? a + s) && (a + s <=? limit)))) n =
    Z.min (Z.max 0 (- a)) (Z.of_nat n) + Z.max 0 (Z.of_nat n - Z.max 0 (limit + 1 - Z.max 0 a))).
  { induction n as [|n IH]; intros Hn; [cbn; lia|]. cbn [sum]. rewrite IH by lia.
    destruct (Z.leb_spec 0 (a + Z.of_nat n)), (Z.leb_spec (a + Z.of_nat n) limit); cbn [ind negb andb]; lia. }
  rewrite G by lia. rewrite Z2Nat.id by lia. lia.
Qed.

(** ** the argument of positivity *)
Lemma aop_T : forall sha TS pp r x k x0 x1 x2, pp_ok pp -> TS (4 * x + 1) = Ret (x0, x1, x2) ->
  exists c3, commitFromTS pp (ac_r3 k) (x0, x1, x2) = Ret c3 /\ forall s, exists C pf,
    AoP_Prove sha TS pp r x (with_s k s) = Ret (C, pf) /\
    ar_T (ap_response pf) = (let '(r0, r1, r2) := ac_r3 k in (4 * r - x0 * r0 - x1 * r1 - x2 * r2) * aop_challenge sha pp c3) + s.
Proof.
  intros sha TS pp r x k x0 x1 x2 Hpp Hts. destruct (aop_response_eq sha TS pp r x k x0 x1 x2 Hpp Hts) as (c3 & Ec & _). exists c3. split; [exact Ec|].
  intros s. destruct (aop_response_eq sha TS pp r x (with_s k s) x0 x1 x2 Hpp Hts) as (c3' & Ec' & Er). change (ac_r3 (with_s k s)) with (ac_r3 k) in *.
  rewrite Ec in Ec'. injection Ec' as <-. destruct (Er (ac_m3 k) (ac_s3 k)) as [cm Hcm]. clear Er.
  change (with_s3 (with_m3 (with_s k s) (ac_m3 k)) (ac_s3 k)) with (with_s k s) in Hcm.
  destruct (ac_r3 k) as [[r0 r1] r2]. destruct (ac_m3 k) as [[m0 m1] m2]. destruct (ac_s3 k) as [[s0 s1] s2]. destruct Hcm as [C Hcm].
  eexists C, _. split; [exact Hcm|]. reflexivity.
Qed.
(** what the last number T masks *)
Definition aop_masked (r : Z) (x3 r3 : Int3) : Z := let '(x0, x1, x2) := x3 in let '(r0, r1, r2) := r3 in 4 * r - x0 * r0 - x1 * r1 - x2 * r2.

(** For every test on the three numbers t, the coins that pass it and those for which uniform numbers pass it differ by at most
    e * (r0 + r1 + r2) * L^2 of the L^3 triples; for T by at most e * |4r - x0r0 - x1r1 - x2r2| coins, and some test reaches this. *)
Theorem C79_AoP_t_hides_partial : forall sha TS pp r x k x0 x1 x2, pp_ok pp -> TS (4 * x + 1) = Ret (x0, x1, x2) ->
  (let '(r0, r1, r2) := ac_r3 k in 0 <= r0 /\ 0 <= r1 /\ 0 <= r2) ->
  exists c3, commitFromTS pp (ac_r3 k) (x0, x1, x2) = Ret c3 /\
  (forall E : Int3 -> bool, let limit := sLmt pp in
     Z.abs (hits3 (fun s => match AoP_Prove sha TS pp r x (with_s3 k s) with Ret (_, pf) => E (ar_T3 (ap_response pf)) | _ => false end) limit - hits3 E limit)
       <= aop_challenge sha pp c3 * (let '(r0, r1, r2) := ac_r3 k in r0 + r1 + r2) * (limit + 1) ^ 2) /\
  let limit := Z.shiftl (sLmt pp) (zkAoPB / 2) in let lost := Z.abs (aop_challenge sha pp c3 * aop_masked r (x0, x1, x2) (ac_r3 k)) in
  let hits E := hits1 (fun s => match AoP_Prove sha TS pp r x (with_s k s) with Ret (_, pf) => E (ar_T (ap_response pf)) | _ => false end) limit in
  (forall E : Z -> bool, Z.abs (hits E - hits1 E limit) <= lost) /\
  (exists E, hits1 E limit = 0 /\ hits E = Z.min lost (limit + 1)).
Proof.
  intros sha TS pp r x k x0 x1 x2 Hpp Hts Hr. destruct (aop_response_eq sha TS pp r x k x0 x1 x2 Hpp Hts) as (c3 & Ec & Er).
  destruct (aop_T sha TS pp r x k x0 x1 x2 Hpp Hts) as (c3' & Ec' & Et). rewrite Ec in Ec'. injection Ec' as <-. exists c3. split; [exact Ec|].
  assert (He : 0 <= aop_challenge sha pp c3) by (unfold aop_challenge; destruct c3 as [[? ?] ?]; apply set_bytes_bound).
  set (e := aop_challenge sha pp c3) in *. assert (HN : 0 < ppN pp) by (destruct Hpp; lia).
  assert (HS : 0 <= sLmt pp) by (unfold sLmt; apply Z.mul_nonneg_nonneg; [apply Z.pow_nonneg|]; lia).
  split; [|cbv zeta].
  - intros E limit. destruct (ac_r3 k) as [[r0 r1] r2] eqn:E3. destruct Hr as (H0 & H1 & H2). unfold limit. set (M := sLmt pp) in *. clearbody M.
    transitivity ((e * r0 + e * r1 + e * r2) * (M + 1) ^ 2); [|nia].
    erewrite <- (hits3_shift E M (e * r0) (e * r1) (e * r2)); try nia. apply Z.eq_le_incl. f_equal. f_equal.
    unfold hits3. apply sum_ext. intros m0 _. apply sum_ext. intros m1 _. apply sum_ext. intros m2 _.
    destruct (Er (ac_m3 k) (m0, m1, m2)) as [cm Hcm]. change (with_m3 k (ac_m3 k)) with {| ac_r3 := ac_r3 k; ac_m3 := ac_m3 k; ac_s3 := ac_s3 k; ac_s := ac_s k |} in Hcm.
    replace {| ac_r3 := ac_r3 k; ac_m3 := ac_m3 k; ac_s3 := ac_s3 k; ac_s := ac_s k |} with k in Hcm by (destruct k; reflexivity).
    destruct (ac_m3 k) as [[? ?] ?]. destruct Hcm as [C Hcm]. rewrite Hcm. reflexivity.
  - set (limit := Z.shiftl (sLmt pp) (zkAoPB / 2)). assert (HL : 0 <= limit) by (apply Z.shiftl_nonneg; exact HS). clearbody limit.
    set (a := e * aop_masked r (x0, x1, x2) (ac_r3 k)).
    assert (Eq : forall E, hits1 (fun s => match AoP_Prove sha TS pp r x (with_s k s) with Ret (_, pf) => E (ar_T (ap_response pf)) | _ => false end) limit = hits1 (fun s => E (a + s)) limit).
    { intros E. unfold hits1. apply sum_ext. intros s _. destruct (Et s) as (C & pf & Ep & ET). rewrite Ep, ET. do 2 f_equal.
      unfold a, aop_masked. destruct (ac_r3 k) as [[r0 r1] r2]. fold e. ring. }
    split; [intros E; rewrite (Eq E); apply hits1_shift|].
    exists (fun t => negb ((0 <=? t) && (t <=? limit))).
    split; [|rewrite <- (hits1_outside limit a HL); exact (Eq (fun t => negb ((0 <=? t) && (t <=? limit))))].
    pose proof (hits1_outside limit 0 HL) as Z0. cbn [Z.abs] in Z0. rewrite Z.min_l in Z0 by lia. etransitivity; [|exact Z0]. unfold hits1. apply sum_ext. intros s _. rewrite Z.add_0_l. reflexivity.
Qed.

(** ** the range proof *)
Lemma rp_response_t : forall sha TS pp r a b x k x1 x2 x3, pp_ok pp -> TS (4 * ((b - x) * (x - a)) + 1) = Ret (x1, x2, x3) ->
  exists c3, commitFromTS pp (rc_r3 k) (x1, x2, x3) = Ret c3 /\ forall s4 sigma, exists pf,
    RP_Prove sha TS pp r a b x (with_sigma (with_s4 k s4) sigma) = Ret pf /\
    let '(r1, r2, r3) := rc_r3 k in let '(s0, s1, s2, s3) := s4 in let e := rp_challenge sha pp a b c3 in
    rr_T4 (rp_resp pf) = (e * - r + s0, e * r1 + s1, e * r2 + s2, e * r3 + s3) /\
    rr_TAU (rp_resp pf) = (4 * ((b - x) * - r) + x1 * r1 + x2 * r2 + x3 * r3) * e + sigma.
Proof.
  intros sha TS pp r a b x k x1 x2 x3 Hpp Hts.
  assert (Sh : Z.shiftl ((b - x) * (x - a)) 2 + 1 = 4 * ((b - x) * (x - a)) + 1) by (rewrite Z.shiftl_mul_pow2 by lia; change (2 ^ 2) with 4; ring).
  destruct (rp_response_eq sha TS pp r a b x k x1 x2 x3 Hpp Hts) as (c3 & Ec & _). exists c3. split; [exact Ec|].
  intros [[[s0 s1] s2] s3] sigma.
  destruct (RP_Prove_returns sha TS pp r a b x (with_sigma (with_s4 k (s0, s1, s2, s3)) sigma) _ Hpp Hts) as (pf & E & _). exists pf. split; [exact E|].
  unfold RP_Prove in E. destruct (calC pp r x) as [c'| |]; try discriminate. cbn [bind] in E. destruct (calCa pp a c'); try discriminate. cbn [bind] in E.
  rewrite Sh, Hts in E. cbn [bind] in E. cbn [with_sigma with_s4 rc_r3 rc_m4 rc_s4 rc_sigma] in E. rewrite Ec in E. cbn [bind] in E.
  destruct (each4 _ _ _) as [d4| |]; try discriminate. cbn [bind] in E. destruct (secondPartH _ _ _ _ _) as [d| |]; try discriminate. cbn [bind] in E.
  destruct (rc_r3 k) as [[r1 r2] r3]. destruct (rc_m4 k) as [[[m0 m1] m2] m3].
  rewrite Z.shiftl_mul_pow2 in E by lia. change (2 ^ 2) with 4 in E. injection E as <-. cbn [rp_resp rr_T4 rr_TAU]. split; [reflexivity|]. ring.
Qed.
(** what the last number tau masks *)
Definition rp_masked (r b x : Z) (x3 r3 : Int3) : Z := let '(x1, x2, x3) := x3 in let '(r1, r2, r3) := r3 in 4 * ((b - x) * - r) + x1 * r1 + x2 * r2 + x3 * r3.
Theorem C79_RP_t_hides_partial : forall sha TS pp r a b x k x1 x2 x3, pp_ok pp -> TS (4 * ((b - x) * (x - a)) + 1) = Ret (x1, x2, x3) ->
  0 <= r -> (let '(r1, r2, r3) := rc_r3 k in 0 <= r1 /\ 0 <= r2 /\ 0 <= r3) ->
  exists c3, commitFromTS pp (rc_r3 k) (x1, x2, x3) = Ret c3 /\
  (forall E : Int4 -> bool, let limit := sLmt pp in
     Z.abs (hits4 (fun s => match RP_Prove sha TS pp r a b x (with_s4 k s) with Ret pf => E (rr_T4 (rp_resp pf)) | _ => false end) limit - hits4 E limit)
       <= rp_challenge sha pp a b c3 * (let '(r1, r2, r3) := rc_r3 k in r + r1 + r2 + r3) * (limit + 1) ^ 3) /\
  let limit := Z.shiftl (sLmt pp) rpB in let lost := Z.abs (rp_challenge sha pp a b c3 * rp_masked r b x (x1, x2, x3) (rc_r3 k)) in
  let hits E := hits1 (fun s => match RP_Prove sha TS pp r a b x (with_sigma k s) with Ret pf => E (rr_TAU (rp_resp pf)) | _ => false end) limit in
  (forall E : Z -> bool, Z.abs (hits E - hits1 E limit) <= lost) /\
  (exists E, hits1 E limit = 0 /\ hits E = Z.min lost (limit + 1)).
Proof.
  intros sha TS pp r a b x k x1 x2 x3 Hpp Hts Hr0 Hr. destruct (rp_response_t sha TS pp r a b x k x1 x2 x3 Hpp Hts) as (c3 & Ec & Er). exists c3. split; [exact Ec|].
  assert (He : 0 <= rp_challenge sha pp a b c3) by (unfold rp_challenge; destruct c3 as [[? ?] ?]; apply set_bytes_bound).
  set (e := rp_challenge sha pp a b c3) in *. assert (HN : 0 < ppN pp) by (destruct Hpp; lia).
  assert (HS : 0 <= sLmt pp) by (unfold sLmt; apply Z.mul_nonneg_nonneg; [apply Z.pow_nonneg|]; lia).
  assert (Kc : forall s, with_sigma (with_s4 k s) (rc_sigma k) = with_s4 k s) by reflexivity.
  assert (Kd : forall s, with_sigma (with_s4 k (rc_s4 k)) s = with_sigma k s) by reflexivity.
  split; [|cbv zeta].
  - intros E limit. destruct (rc_r3 k) as [[r1 r2] r3] eqn:E3. destruct Hr as (H1 & H2 & H3). unfold limit. set (M := sLmt pp) in *. clearbody M.
    transitivity ((Z.abs (e * - r) + e * r1 + e * r2 + e * r3) * (M + 1) ^ 3); [|rewrite Z.abs_neq by nia; apply Z.eq_le_incl; ring].
    erewrite <- (hits4_shift_any E M (e * - r) (e * r1) (e * r2) (e * r3)); try nia. apply Z.eq_le_incl. f_equal. f_equal.
    unfold hits4. apply sum_ext. intros m0 _. apply sum_ext. intros m1 _. apply sum_ext. intros m2 _. apply sum_ext. intros m3 _.
    destruct (Er (m0, m1, m2, m3) (rc_sigma k)) as (pf & Ep & Ez & _). rewrite Kc in Ep. rewrite Ep, Ez. reflexivity.
  - set (limit := Z.shiftl (sLmt pp) rpB). assert (HL : 0 <= limit) by (apply Z.shiftl_nonneg; exact HS). clearbody limit.
    set (d := e * rp_masked r b x (x1, x2, x3) (rc_r3 k)).
    assert (Eq : forall E, hits1 (fun s => match RP_Prove sha TS pp r a b x (with_sigma k s) with Ret pf => E (rr_TAU (rp_resp pf)) | _ => false end) limit = hits1 (fun s => E (d + s)) limit).
    { intros E. unfold hits1. apply sum_ext. intros s _. destruct (Er (rc_s4 k) s) as (pf & Ep & ET). rewrite Kd in Ep. rewrite Ep.
      unfold d, rp_masked. destruct (rc_r3 k) as [[r1 r2] r3]. destruct (rc_s4 k) as [[[s0 s1] s2] s3]. destruct ET as [_ ET]. rewrite ET. do 2 f_equal. fold e. ring. }
    split; [intros E; rewrite (Eq E); apply hits1_shift|].
    exists (fun t => negb ((0 <=? t) && (t <=? limit))).
    split; [|rewrite <- (hits1_outside limit d HL); exact (Eq (fun t => negb ((0 <=? t) && (t <=? limit))))].
    pose proof (hits1_outside limit 0 HL) as Z0. cbn [Z.abs] in Z0. rewrite Z.min_l in Z0 by lia. etransitivity; [|exact Z0]. unfold hits1. apply sum_ext. intros s _. rewrite Z.add_0_l. reflexivity.
Qed.

(** ** how much that is *)
Lemma limit_T : forall pp, Z.shiftl (sLmt pp) (zkAoPB / 2) = 2 ^ 256 * 2 ^ 2048 * ppN pp.
Proof.
  intros pp. change (zkAoPB / 2) with 2048. rewrite Z.shiftl_mul_pow2 by lia. unfold sLmt, securityParam.
  replace (4 ^ 128) with (2 ^ 256) by (change 4 with (2 ^ 2); rewrite <- Z.pow_mul_r by lia; reflexivity). generalize (2 ^ 256) (2 ^ 2048). intros; ring.
Qed.
Lemma limit_TAU : forall pp, Z.shiftl (sLmt pp) rpB = 2 ^ 256 * 2 ^ 4096 * ppN pp.
Proof.
  intros pp. change rpB with 4096. rewrite Z.shiftl_mul_pow2 by lia. unfold sLmt, securityParam.
  replace (4 ^ 128) with (2 ^ 256) by (change 4 with (2 ^ 2); rewrite <- Z.pow_mul_r by lia; reflexivity). generalize (2 ^ 256) (2 ^ 4096). intros; ring.
Qed.
Lemma mask_step : forall A K L B N e m, 0 <= A -> 0 <= e < K -> 0 <= N -> Z.abs m <= L * N -> A * L <= B -> 0 <= L -> A * Z.abs (e * m) <= K * B * N + 1.
Proof.
  intros A K L B N e m HA He HN Hm HB HL. rewrite Z.abs_mul, (Z.abs_eq e) by lia.
  assert (e * Z.abs m <= K * (L * N)) by (apply Z.mul_le_mono_nonneg; lia). assert (A * (e * Z.abs m) <= A * (K * (L * N))) by (apply Z.mul_le_mono_nonneg_l; lia).
  assert (K * (A * L * N) <= K * (B * N)) by (apply Z.mul_le_mono_nonneg_l; [lia|]; apply Z.mul_le_mono_nonneg_r; lia). lia.
Qed.
(** T hides all but one part in 2^128 for numbers x below 2^3834, coins up to N and 32-byte digests *)
Theorem C79_AoP_T_distance : forall sha pp c3 r x x0 x1 x2 r0 r1 r2, (forall s, String.length (sha s) = 32%nat) -> 0 < ppN pp ->
  0 <= x < 2 ^ 3834 -> 0 <= x0 -> 0 <= x1 -> 0 <= x2 -> x0 * x0 + x1 * x1 + x2 * x2 = 4 * x + 1 ->
  0 <= r <= ppN pp -> 0 <= r0 <= ppN pp -> 0 <= r1 <= ppN pp -> 0 <= r2 <= ppN pp ->
  2 ^ 128 * Z.abs (aop_challenge sha pp c3 * aop_masked r (x0, x1, x2) (r0, r1, r2)) <= Z.shiftl (sLmt pp) (zkAoPB / 2) + 1.
Proof.
  intros sha pp c3 r x x0 x1 x2 r0 r1 r2 Hd HN Hx H0 H1 H2 Hs Hr Hr0 Hr1 Hr2.
  assert (He : 0 <= aop_challenge sha pp c3 < 2 ^ 256).
  { unfold aop_challenge. destruct c3 as [[? ?] ?]. match goal with |- context [set_bytes ?s] => pose proof (set_bytes_bound s) as B end.
    rewrite Hd in B. exact B. }
  rewrite limit_T. apply (mask_step (2 ^ 128) (2 ^ 256) (2 ^ 1920)); [apply Z.pow_nonneg; clear; lia|exact He|clear - HN; lia| | |apply Z.pow_nonneg; clear; lia].
  2:{ rewrite <- Z.pow_add_r by (clear; lia). apply Z.pow_le_mono_r; clear; lia. }
  assert (P : 2 ^ 3834 = 2 ^ 1917 * 2 ^ 1917) by (rewrite <- Z.pow_add_r by (clear; lia); apply f_equal; reflexivity).
  assert (P2 : 2 ^ 1920 = 8 * 2 ^ 1917) by (change 8 with (2 ^ 3); rewrite <- Z.pow_add_r by (clear; lia); apply f_equal; reflexivity).
  assert (P3 : 2 <= 2 ^ 1917) by (rewrite <- (Z.pow_1_r 2) at 1; apply Z.pow_le_mono_r; clear; lia).
  rewrite P in Hx. rewrite P2. revert P3 Hx. generalize (2 ^ 1917). clear - HN H0 H1 H2 Hs Hr Hr0 Hr1 Hr2. intros W P3 Hx. unfold aop_masked.
  assert (C : forall y, 0 <= y -> y * y <= 4 * (W * W) -> y <= 2 * W) by (intros y Hy Hyy; apply Z.square_le_simpl_nonneg; lia).
  pose proof (C x0 H0 ltac:(nia)) as C0. pose proof (C x1 H1 ltac:(nia)) as C1. pose proof (C x2 H2 ltac:(nia)) as C2. clear C Hs Hx.
  set (N := ppN pp) in *. clearbody N.
  assert (M0 : 0 <= x0 * r0 <= 2 * W * N) by nia. assert (M1 : 0 <= x1 * r1 <= 2 * W * N) by nia. assert (M2 : 0 <= x2 * r2 <= 2 * W * N) by nia.
  assert (2 * N <= W * N) by nia. apply Z.abs_le. lia.
Qed.
(** tau hides all but one part in 2^128 for ranges narrower than 2^3965 *)
Theorem C79_RP_TAU_distance : forall sha pp a b c3 r x x1 x2 x3 r1 r2 r3, (forall s, String.length (sha s) = 32%nat) -> 0 < ppN pp ->
  a <= x <= b -> b - a < 2 ^ 3965 -> 0 <= x1 -> 0 <= x2 -> 0 <= x3 -> x1 * x1 + x2 * x2 + x3 * x3 = 4 * ((b - x) * (x - a)) + 1 ->
  0 <= r <= ppN pp -> 0 <= r1 <= ppN pp -> 0 <= r2 <= ppN pp -> 0 <= r3 <= ppN pp ->
  2 ^ 128 * Z.abs (rp_challenge sha pp a b c3 * rp_masked r b x (x1, x2, x3) (r1, r2, r3)) <= Z.shiftl (sLmt pp) rpB + 1.
Proof.
  intros sha pp a b c3 r x x1 x2 x3 r1 r2 r3 Hd HN Hx Hw H1 H2 H3 Hs Hr Hr1 Hr2 Hr3.
  assert (He : 0 <= rp_challenge sha pp a b c3 < 2 ^ 256).
  { unfold rp_challenge. destruct c3 as [[? ?] ?]. match goal with |- context [set_bytes ?s] => pose proof (set_bytes_bound s) as B end.
    rewrite Hd in B. exact B. }
  rewrite limit_TAU. apply (mask_step (2 ^ 128) (2 ^ 256) (2 ^ 3968)); [apply Z.pow_nonneg; clear; lia|exact He|clear - HN; lia| | |apply Z.pow_nonneg; clear; lia].
  2:{ rewrite <- Z.pow_add_r by (clear; lia). apply Z.pow_le_mono_r; clear; lia. }
  replace (2 ^ 3968) with (8 * 2 ^ 3965) by (change 8 with (2 ^ 3); rewrite <- Z.pow_add_r by (clear; lia); apply f_equal; reflexivity).
  revert Hw. generalize (2 ^ 3965). clear - HN Hx H1 H2 H3 Hs Hr Hr1 Hr2 Hr3. intros W Hw. unfold rp_masked.
  set (u := b - x) in *. set (v := x - a) in *. assert (U : 0 <= u) by lia. assert (V : 0 <= v) by lia. assert (UV : u + v + 1 <= W) by lia. clearbody u v.
  assert (S1 : 4 * (u * v) + 1 <= W * W) by (pose proof (Z.square_nonneg (u - v)); nia).
  assert (C : forall y, 0 <= y -> y * y <= W * W -> y <= W) by (intros y Hy Hyy; apply Z.square_le_simpl_nonneg; lia).
  pose proof (C x1 H1 ltac:(nia)) as C1. pose proof (C x2 H2 ltac:(nia)) as C2. pose proof (C x3 H3 ltac:(nia)) as C3. clear C Hs S1 Hx Hw.
  set (N := ppN pp) in *. clearbody N.
  assert (M0 : 0 <= u * r <= W * N) by nia. assert (M1 : 0 <= x1 * r1 <= W * N) by nia. assert (M2 : 0 <= x2 * r2 <= W * N) by nia. assert (M3 : 0 <= x3 * r3 <= W * N) by nia.
  replace (u * - r) with (- (u * r)) by ring. apply Z.abs_le. lia.
Qed.

(** Not so for every x below 2^4096: for x = 2^4095, with 4x + 1 = y^2 + y^2 + 1 and y = 2^2048, there are a digest
    and coins for which no value of T is possible that a uniform number can have. *)
Lemma ones_challenge : forall pp c3, aop_challenge ones_sha pp c3 = 2 ^ 256 - 1.
Proof. intros pp [[c0 c1] c2]. unfold aop_challenge, ones_sha. vm_compute. reflexivity. Qed.
Lemma ones_challenge_rp : forall pp a b c3, rp_challenge ones_sha pp a b c3 = 2 ^ 256 - 1.
Proof. intros pp a b [[c0 c1] c2]. unfold rp_challenge, ones_sha. vm_compute. reflexivity. Qed.
Theorem C79_AoP_T_refuted : exists sha : string -> string, (forall s, String.length (sha s) = 32%nat) /\
  let x := 2 ^ 4095 in let y := 2 ^ 2048 in y * y + y * y + 1 * 1 = 4 * x + 1 /\
  forall TS pp k, pp_ok pp -> TS (4 * x + 1) = Ret (y, y, 1) -> ac_r3 k = (ppN pp, ppN pp, ppN pp) ->
  let limit := Z.shiftl (sLmt pp) (zkAoPB / 2) in
  exists E, hits1 E limit = 0 /\
    hits1 (fun s => match AoP_Prove sha TS pp 0 x (with_s k s) with Ret (_, pf) => E (ar_T (ap_response pf)) | _ => false end) limit = limit + 1.
Proof.
  exists ones_sha. split; [reflexivity|]. cbv zeta.
  assert (P : 4 * 2 ^ 4095 = 2 ^ 2048 * 2 ^ 2048 + 2 ^ 2048 * 2 ^ 2048).
  { rewrite <- !Z.pow_add_r by (clear; lia). change 4 with (2 ^ 2). rewrite <- Z.pow_add_r by (clear; lia). change (2 + 4095) with (Z.succ 4096). rewrite Z.pow_succ_r by (clear; lia).
    change (2048 + 2048) with 4096. generalize (2 ^ 4096). clear. intros; lia. }
  split; [rewrite P; generalize (2 ^ 2048 * 2 ^ 2048); clear; intros; lia|].
  intros TS pp k Hpp Hts Hr. assert (HN : 0 < ppN pp) by (destruct Hpp; lia).
  destruct (C79_AoP_t_hides_partial ones_sha TS pp 0 (2 ^ 4095) k (2 ^ 2048) (2 ^ 2048) 1 Hpp Hts) as (c3 & _ & _ & _ & E & E0 & E1).
  { rewrite Hr. clear - HN. lia. }
  exists E. split; [exact E0|]. rewrite E1. apply Z.min_r. rewrite ones_challenge, Hr, limit_T. unfold aop_masked.
  assert (A : 2 <= 2 ^ 256) by (rewrite <- (Z.pow_1_r 2) at 1; apply Z.pow_le_mono_r; clear; lia).
  assert (B : 2 <= 2 ^ 2048) by (rewrite <- (Z.pow_1_r 2) at 1; apply Z.pow_le_mono_r; clear; lia).
  revert A B HN. generalize (2 ^ 256) (2 ^ 2048) (ppN pp). clear. intros K Y N A B HN.
  rewrite Z.abs_neq by nia. assert (K * Y * N <= (K - 1) * (2 * Y) * N) by nia. assert (1 <= (K - 1) * N) by nia. lia.
Qed.
(** the first number t of the range proof shows the coin r of the commitment to x: none of the coins s0 makes it negative for r = 0,
    all but N + 1 do for r = N *)
Theorem C79_RP_t_refuted : exists sha : string -> string, (forall s, String.length (sha s) = 32%nat) /\
  forall TS pp a b x k ts, pp_ok pp -> TS (4 * ((b - x) * (x - a)) + 1) = Ret ts -> let limit := sLmt pp in
  let negative r s0 := match RP_Prove sha TS pp r a b x (with_s4 k (let '(_, s1, s2, s3) := rc_s4 k in (s0, s1, s2, s3))) with
    | Ret pf => let '(t0, _, _, _) := rr_T4 (rp_resp pf) in t0 <? 0 | _ => false end in
  hits1 (negative 0) limit = 0 /\ hits1 (negative (ppN pp)) limit = limit - ppN pp.
Proof.
  exists ones_sha. split; [reflexivity|]. intros TS pp a b x k [[x1 x2] x3] Hpp Hts limit negative.
  assert (HN : 0 < ppN pp) by (destruct Hpp; lia).
  assert (EL : limit = 2 ^ 256 * ppN pp) by reflexivity. assert (P256 : 0 < 2 ^ 256) by (apply Z.pow_pos_nonneg; lia).
  assert (Cnt : forall c, 0 <= c -> c <= limit + 1 -> hits1 (fun s => - c + s <? 0) limit = c).
  { intros c H0 H1. unfold hits1. assert (G : forall n : nat, sum (fun s => ind (- c + s <? 0)) n = Z.min c (Z.of_nat n)).
    { induction n as [|n IH]; [cbn; lia|]. cbn [sum]. rewrite IH. destruct (Z.ltb_spec (- c + Z.of_nat n) 0); cbn [ind]; lia. }
    rewrite G. clear - H0 H1. lia. }
  assert (Gen : forall r, 0 <= r <= ppN pp -> hits1 (negative r) limit = (2 ^ 256 - 1) * r).
  { intros r Hr. rewrite <- (Cnt ((2 ^ 256 - 1) * r)).
    - unfold hits1. apply sum_ext. intros s _. unfold negative. destruct (rp_response_t ones_sha TS pp r a b x k x1 x2 x3 Hpp Hts) as (c3 & _ & Er).
      destruct (rc_s4 k) as [[[s0 s1] s2] s3]. destruct (Er (s, s1, s2, s3) (rc_sigma k)) as (pf & Ep & Ez). change (with_sigma (with_s4 k (s, s1, s2, s3)) (rc_sigma k)) with (with_s4 k (s, s1, s2, s3)) in Ep.
      rewrite Ep. destruct (rc_r3 k) as [[r1 r2] r3]. destruct Ez as [-> _]. rewrite ones_challenge_rp. rewrite Z.mul_opp_r. reflexivity.
    - clear - P256 Hr. nia.
    - rewrite EL. clear - P256 Hr. nia. }
  split; rewrite Gen by lia; [apply Z.mul_0_r|]. rewrite EL. ring.
Qed.
(** a proof to which all of this applies: x = 1, the range [0, 2], any coins *)
Example C79_mask_case : let pp := {| ppN := 77; ppG := 4; ppH := 9 |} in
  pp_ok pp /\ toy_squares (4 * 1 + 1) = Ret (2, 1, 0) /\ toy_squares (4 * ((2 - 1) * (1 - 0)) + 1) = Ret (2, 1, 0) /\
  aop_masked 5 (2, 1, 0) (3, 4, 6) = 10 /\ rp_masked 5 2 1 (2, 1, 0) (3, 4, 6) = -10.
Proof. cbv zeta. split; [unfold pp_ok; cbn; repeat split; (lia || reflexivity)|]. repeat split; reflexivity. Qed.

Print Assumptions C79_AoP_t_hides_partial.
Print Assumptions C79_RP_t_hides_partial.
Print Assumptions C79_AoP_T_distance.
Print Assumptions C79_RP_TAU_distance.
Print Assumptions C79_AoP_T_refuted.
Print Assumptions C79_RP_t_refuted.
