(** Theorems for properties C79 and C80: how well the responses of the zero-knowledge proofs hide the
    numbers they are computed from. Coins are counted (they are uniform: C78); for a fixed challenge the
    statements bound the change of every event on the response, i.e. a statistical distance. *)
From Coq Require Import ZArith Znumtheory Zpow_facts Bool Lia String Ascii List.
From Verif Require Import GoBig GoBigFacts Spec StrFacts FSModel FSProofs PokeModel PokeProofs SquaresModel RangeModel RangeProofs
  HashModel PropertiesHash PropertiesPoke PropertiesRange SecurityProofs RandModel Orders.
Import ListNotations.
Open Scope Z_scope.

(** ** sums over an initial segment *)
Fixpoint sum (f : Z -> Z) (M : nat) : Z := match M with O => 0 | S m => sum f m + f (Z.of_nat m) end.

Lemma sum_ext : forall f g M, (forall m, 0 <= m < Z.of_nat M -> f m = g m) -> sum f M = sum g M.
Proof.
  intros f g M. induction M as [|M IH]; intros H; [reflexivity|]. cbn [sum]. rewrite IH by (intros m Hm; apply H; lia). rewrite H by lia. reflexivity.
Qed.
Lemma sum_bound : forall f B M, (forall m, 0 <= m -> 0 <= f m <= B) -> 0 <= sum f M <= Z.of_nat M * B.
Proof. intros f B M H. induction M as [|M IH]; cbn [sum]; [lia|]. pose proof (H (Z.of_nat M) ltac:(lia)). nia. Qed.
Lemma sum_add : forall f p q, sum f (p + q) = sum f p + sum (fun x => f (Z.of_nat p + x)) q.
Proof.
  intros f p q. induction q as [|q IH]; [rewrite Nat.add_0_r; cbn; lia|]. rewrite Nat.add_succ_r. cbn [sum]. rewrite IH, Nat2Z.inj_add. lia.
Qed.
Lemma sum_diff : forall f g B M, (forall m, 0 <= m < Z.of_nat M -> Z.abs (f m - g m) <= B) -> Z.abs (sum f M - sum g M) <= Z.of_nat M * B.
Proof.
  intros f g B M. induction M as [|M IH]; intros H; [cbn; lia|]. cbn [sum].
  specialize (IH ltac:(intros m Hm; apply H; lia)). pose proof (H (Z.of_nat M) ltac:(lia)). lia.
Qed.
(** moving the summation interval by a changes at most a summands at either end *)
Lemma sum_shift : forall f B a M, (forall m, 0 <= m -> 0 <= f m <= B) -> 0 <= a ->
  Z.abs (sum (fun m => f (a + m)) M - sum f M) <= a * B.
Proof.
  intros f B a M H Ha. rewrite <- (Z2Nat.id a) by assumption. set (n := Z.to_nat a).
  pose proof (sum_add f n M) as E1. pose proof (sum_add f M n) as E2. rewrite Nat.add_comm in E2.
  pose proof (sum_bound f B n H). pose proof (sum_bound (fun x => f (Z.of_nat M + x)) B n ltac:(intros m Hm; apply H; lia)). lia.
Qed.
Lemma count_sum : forall f M, Z.of_nat (count f M) = sum (fun m => if f m then 1 else 0) M.
Proof. intros f M. induction M as [|M IH]; [reflexivity|]. rewrite count_S, Nat2Z.inj_add, IH. cbn [sum]. destruct (f _); lia. Qed.

(** number of triples (quadruples) of coins in [0, limit] that pass a test *)
Definition ind (b : bool) : Z := if b then 1 else 0.
Definition hits3 (E : Int3 -> bool) (limit : Z) : Z :=
  let M := Z.to_nat (limit + 1) in sum (fun a => sum (fun b => sum (fun c => ind (E (a, b, c))) M) M) M.
Definition hits4 (E : Int4 -> bool) (limit : Z) : Z :=
  let M := Z.to_nat (limit + 1) in sum (fun a => sum (fun b => sum (fun c => sum (fun d => ind (E (a, b, c, d))) M) M) M) M.

Lemma ind_bound : forall b, 0 <= ind b <= 1.
Proof. intros []; cbn; lia. Qed.
Lemma sum_bound' : forall f B M, (forall m, 0 <= f m <= B) -> 0 <= sum f M <= Z.of_nat M * B.
Proof. intros f B M H. apply sum_bound. intros m _. apply H. Qed.

Lemma hits3_shift : forall E limit a b c, 0 <= limit -> 0 <= a -> 0 <= b -> 0 <= c ->
  Z.abs (hits3 (fun '(m0, m1, m2) => E (a + m0, b + m1, c + m2)) limit - hits3 E limit) <= (a + b + c) * (limit + 1) ^ 2.
Proof.
  intros E limit a b c HL Ha Hb Hc. unfold hits3. set (M := Z.to_nat (limit + 1)).
  assert (EM : Z.of_nat M = limit + 1) by (unfold M; lia). rewrite <- EM.
  set (f := fun x y z => ind (E (x, y, z))). assert (F0 : forall x y z, 0 <= f x y z <= 1) by (intros; apply ind_bound).
  set (g := fun x y => sum (f x y) M). assert (G0 : forall x y, 0 <= g x y <= Z.of_nat M) by (intros x y; unfold g; rewrite <- (Z.mul_1_r (Z.of_nat M)); now apply sum_bound').
  set (h := fun x => sum (g x) M). assert (H0 : forall x, 0 <= h x <= Z.of_nat M * Z.of_nat M) by (intros x; now apply sum_bound').
  change (Z.abs (sum (fun x => sum (fun y => sum (fun z => f (a + x) (b + y) (c + z)) M) M) M - sum h M) <= (a + b + c) * Z.of_nat M ^ 2).
  assert (S1 : forall x y, Z.abs (sum (fun z => f x y (c + z)) M - g x y) <= c * 1) by (intros x y; now apply sum_shift).
  assert (S2 : forall x, Z.abs (sum (fun y => g x (b + y)) M - h x) <= b * Z.of_nat M) by (intros x; now apply sum_shift).
  assert (S3 : Z.abs (sum (fun x => h (a + x)) M - sum h M) <= a * (Z.of_nat M * Z.of_nat M)) by (now apply sum_shift).
  assert (T1 : Z.abs (sum (fun x => sum (fun y => sum (fun z => f (a + x) (b + y) (c + z)) M) M) M - sum (fun x => sum (fun y => g (a + x) (b + y)) M) M)
    <= Z.of_nat M * (Z.of_nat M * c)).
  { apply sum_diff. intros x _. apply sum_diff. intros y _. pose proof (S1 (a + x) (b + y)). lia. }
  assert (T2 : Z.abs (sum (fun x => sum (fun y => g (a + x) (b + y)) M) M - sum (fun x => h (a + x)) M) <= Z.of_nat M * (b * Z.of_nat M)).
  { apply sum_diff. intros x _. apply S2. }
  rewrite Z.pow_2_r. clear - T1 T2 S3. lia.
Qed.
Lemma hits4_shift : forall E limit a b c d, 0 <= limit -> 0 <= a -> 0 <= b -> 0 <= c -> 0 <= d ->
  Z.abs (hits4 (fun '(m0, m1, m2, m3) => E (a + m0, b + m1, c + m2, d + m3)) limit - hits4 E limit) <= (a + b + c + d) * (limit + 1) ^ 3.
Proof.
  intros E limit a b c d HL Ha Hb Hc Hd. unfold hits4. set (M := Z.to_nat (limit + 1)).
  assert (EM : Z.of_nat M = limit + 1) by (unfold M; lia). rewrite <- EM.
  set (f := fun x y z w => ind (E (x, y, z, w))). assert (F0 : forall x y z w, 0 <= f x y z w <= 1) by (intros; apply ind_bound).
  set (g := fun x y z => sum (f x y z) M). assert (G0 : forall x y z, 0 <= g x y z <= Z.of_nat M) by (intros x y z; unfold g; rewrite <- (Z.mul_1_r (Z.of_nat M)); now apply sum_bound').
  set (h := fun x y => sum (g x y) M). assert (H0 : forall x y, 0 <= h x y <= Z.of_nat M * Z.of_nat M) by (intros x y; now apply sum_bound').
  set (k := fun x => sum (h x) M). assert (K0 : forall x, 0 <= k x <= Z.of_nat M * (Z.of_nat M * Z.of_nat M)) by (intros x; now apply sum_bound').
  change (Z.abs (sum (fun x => sum (fun y => sum (fun z => sum (fun w => f (a + x) (b + y) (c + z) (d + w)) M) M) M) M - sum k M) <= (a + b + c + d) * Z.of_nat M ^ 3).
  assert (S1 : forall x y z, Z.abs (sum (fun w => f x y z (d + w)) M - g x y z) <= d * 1) by (intros; now apply sum_shift).
  assert (S2 : forall x y, Z.abs (sum (fun z => g x y (c + z)) M - h x y) <= c * Z.of_nat M) by (intros; now apply sum_shift).
  assert (S3 : forall x, Z.abs (sum (fun y => h x (b + y)) M - k x) <= b * (Z.of_nat M * Z.of_nat M)) by (intros; now apply sum_shift).
  assert (S4 : Z.abs (sum (fun x => k (a + x)) M - sum k M) <= a * (Z.of_nat M * (Z.of_nat M * Z.of_nat M))) by (now apply sum_shift).
  assert (T1 : Z.abs (sum (fun x => sum (fun y => sum (fun z => sum (fun w => f (a + x) (b + y) (c + z) (d + w)) M) M) M) M
     - sum (fun x => sum (fun y => sum (fun z => g (a + x) (b + y) (c + z)) M) M) M) <= Z.of_nat M * (Z.of_nat M * (Z.of_nat M * d))).
  { apply sum_diff. intros x _. apply sum_diff. intros y _. apply sum_diff. intros z _. pose proof (S1 (a + x) (b + y) (c + z)). lia. }
  assert (T2 : Z.abs (sum (fun x => sum (fun y => sum (fun z => g (a + x) (b + y) (c + z)) M) M) M - sum (fun x => sum (fun y => h (a + x) (b + y)) M) M) <= Z.of_nat M * (Z.of_nat M * (c * Z.of_nat M))).
  { apply sum_diff. intros x _. apply sum_diff. intros y _. apply S2. }
  assert (T3 : Z.abs (sum (fun x => sum (fun y => h (a + x) (b + y)) M) M - sum (fun x => k (a + x)) M) <= Z.of_nat M * (b * (Z.of_nat M * Z.of_nat M))).
  { apply sum_diff. intros x _. apply S3. }
  replace (Z.of_nat M ^ 3) with (Z.of_nat M * (Z.of_nat M * Z.of_nat M)) by ring. clear - T1 T2 T3 S4. nia.
Qed.

(** ** C79. The responses of the argument of positivity and of the range proof *)
Definition with_m3 (k : aop_coins) (m : Int3) : aop_coins := {| ac_r3 := ac_r3 k; ac_m3 := m; ac_s3 := ac_s3 k; ac_s := ac_s k |}.
Definition with_m4 (k : rp_coins) (m : Int4) : rp_coins := {| rc_r3 := rc_r3 k; rc_m4 := m; rc_s4 := rc_s4 k; rc_sigma := rc_sigma k |}.
Definition with_s3 (k : aop_coins) (s : Int3) : aop_coins := {| ac_r3 := ac_r3 k; ac_m3 := ac_m3 k; ac_s3 := s; ac_s := ac_s k |}.
Definition with_r3 (k : aop_coins) (r : Int3) : aop_coins := {| ac_r3 := r; ac_m3 := ac_m3 k; ac_s3 := ac_s3 k; ac_s := ac_s k |}.

Lemma aop_response_eq : forall sha TS pp r x k x0 x1 x2, pp_ok pp -> TS (4 * x + 1) = Ret (x0, x1, x2) ->
  exists c3, commitFromTS pp (ac_r3 k) (x0, x1, x2) = Ret c3 /\ forall m3 s3, exists cm,
    let '(r0, r1, r2) := ac_r3 k in let '(m0, m1, m2) := m3 in let '(s0, s1, s2) := s3 in
    let e := aop_challenge sha pp c3 in
    exists C, AoP_Prove sha TS pp r x (with_s3 (with_m3 k m3) s3) = Ret (C, {| ap_commit3 := c3; ap_commitment := cm; ap_response :=
      {| ar_Z3 := (e * x0 + m0, e * x1 + m1, e * x2 + m2); ar_T3 := (e * r0 + s0, e * r1 + s1, e * r2 + s2);
         ar_T := (4 * r - x0 * r0 - x1 * r1 - x2 * r2) * e + ac_s k |} |}).
Proof.
  intros sha TS pp r x k x0 x1 x2 Hpp Hts.
  destruct (AoP_Prove_returns sha TS pp r x k _ Hpp Hts) as [pf0 E0].
  unfold AoP_Prove in E0. destruct (calC pp r x); try discriminate. cbn [bind] in E0.
  rewrite (Z.shiftl_mul_pow2 x 2), (Z.mul_comm x) in E0 by lia. change (2 ^ 2) with 4 in E0. rewrite Hts in E0. cbn [bind] in E0.
  destruct (commitFromTS pp (ac_r3 k) (x0, x1, x2)) as [c3| |] eqn:Ec; try discriminate. clear E0. exists c3. split; [reflexivity|].
  intros [[m0 m1] m2] [[s0 s1] s2].
  destruct (AoP_Prove_returns sha TS pp r x (with_s3 (with_m3 k (m0, m1, m2)) (s0, s1, s2)) _ Hpp Hts) as [pf E].
  pose proof E as E'. unfold AoP_Prove in E'. destruct (calC pp r x) as [C| |]; try discriminate. cbn [bind] in E'.
  rewrite (Z.shiftl_mul_pow2 x 2), (Z.mul_comm x) in E' by lia. change (2 ^ 2) with 4 in E'. rewrite Hts in E'. cbn [bind] in E'.
  change (ac_r3 (with_s3 (with_m3 k (m0, m1, m2)) (s0, s1, s2))) with (ac_r3 k) in E'. rewrite Ec in E'. cbn [bind] in E'.
  cbn [with_m3 with_s3 ac_m3 ac_s3 ac_s] in E'.
  destruct (each3 _ _ _) as [d3| |]; try discriminate. cbn [bind] in E'.
  destruct (fold3 _ _ _ _) as [d| |]; try discriminate. cbn [bind] in E'.
  destruct (mul_exp _ d _ _) as [d'| |]; try discriminate. cbn [bind] in E'.
  exists (aop_commitment sha d3 d'). destruct (ac_r3 k) as [[r0 r1] r2]. cbv zeta.
  eexists. rewrite E. rewrite <- E'. rewrite (Z.shiftl_mul_pow2 r 2) by lia. change (2 ^ 2) with 4. rewrite (Z.mul_comm r 4). reflexivity.
Qed.

(** The z part hides the three squares: for every test E on (z0, z1, z2), the coins (m0, m1, m2) that pass it
    and those for which uniform numbers pass it differ by at most e * (x0 + x1 + x2) * M^2 of the M^3 triples. *)
Theorem C79_AoP_z_hides_partial : forall sha TS pp r x k x0 x1 x2, pp_ok pp -> TS (4 * x + 1) = Ret (x0, x1, x2) ->
  0 <= x0 -> 0 <= x1 -> 0 <= x2 ->
  exists c3, commitFromTS pp (ac_r3 k) (x0, x1, x2) = Ret c3 /\ forall E : Int3 -> bool,
  Z.abs (hits3 (fun m => match AoP_Prove sha TS pp r x (with_m3 k m) with Ret (_, pf) => E (ar_Z3 (ap_response pf)) | _ => false end) (mLmt zkAoPB)
     - hits3 E (mLmt zkAoPB)) <= aop_challenge sha pp c3 * (x0 + x1 + x2) * (mLmt zkAoPB + 1) ^ 2.
Proof.
  intros sha TS pp r x k x0 x1 x2 Hpp Hts H0 H1 H2.
  destruct (aop_response_eq sha TS pp r x k x0 x1 x2 Hpp Hts) as (c3 & Ec & Er). exists c3. split; [exact Ec|]. intros E.
  set (e := aop_challenge sha pp c3) in *.
  assert (He : 0 <= e) by (unfold e, aop_challenge; destruct c3 as [[? ?] ?]; apply set_bytes_bound).
  assert (HM : 0 <= mLmt zkAoPB) by (apply Z.pow_nonneg; lia). set (M := mLmt zkAoPB) in *. clearbody M.
  transitivity ((e * x0 + e * x1 + e * x2) * (M + 1) ^ 2); [|nia].
  erewrite <- (hits3_shift E M (e * x0) (e * x1) (e * x2)); try nia. apply Z.eq_le_incl. f_equal. f_equal.
  unfold hits3. apply sum_ext. intros m0 _. apply sum_ext. intros m1 _. apply sum_ext. intros m2 _.
  destruct (Er (m0, m1, m2) (ac_s3 k)) as [cm Hcm]. destruct (ac_r3 k) as [[r0 r1] r2]. destruct (ac_s3 k) as [[s0 s1] s2] eqn:Es.
  cbv zeta in Hcm. destruct Hcm as [C Hcm].
  change (with_s3 (with_m3 k (m0, m1, m2)) (s0, s1, s2)) with {| ac_r3 := ac_r3 k; ac_m3 := (m0, m1, m2); ac_s3 := (s0, s1, s2); ac_s := ac_s k |} in Hcm.
  unfold with_m3. rewrite Es, Hcm. reflexivity.
Qed.
Lemma distance_step : forall A K L M e y n m, 0 <= A -> 0 <= e < K -> 0 <= y -> y <= L -> A * (K * L) <= M -> 0 <= n -> m = n + 1 ->
  A * (e * y * (M + 1) ^ n) <= (M + 1) ^ m.
Proof.
  intros A K L M e y n m HA He Hy HL HM Hn ->. assert (e * y <= K * L) by nia. assert (0 <= M) by nia.
  rewrite Z.pow_add_r, Z.pow_1_r by lia. assert (P : 0 <= (M + 1) ^ n) by (apply Z.pow_nonneg; lia). generalize dependent ((M + 1) ^ n). intros W P.
  assert (A * (e * y) <= M) by nia. rewrite Z.mul_assoc, (Z.mul_comm W). apply Z.mul_le_mono_nonneg_r; lia.
Qed.
Lemma mLmt_same : mLmt zkAoPB = 2 ^ 4352.
Proof. unfold mLmt. apply f_equal. reflexivity. Qed.
Lemma mLmt_same_rp : mLmt rpB = 2 ^ 4352.
Proof. unfold mLmt. apply f_equal. reflexivity. Qed.
(** for 32-byte digests and x below 2^4096 that is at most one part in 2^128 *)
Theorem C79_AoP_z_distance : forall sha pp c3 x x0 x1 x2, (forall s, String.length (sha s) = 32%nat) ->
  0 <= x < 2 ^ 4096 -> 0 <= x0 -> 0 <= x1 -> 0 <= x2 -> x0 * x0 + x1 * x1 + x2 * x2 = 4 * x + 1 ->
  2 ^ 128 * (aop_challenge sha pp c3 * (x0 + x1 + x2) * (mLmt zkAoPB + 1) ^ 2) <= (mLmt zkAoPB + 1) ^ 3.
Proof.
  intros sha pp c3 x x0 x1 x2 Hd Hx H0 H1 H2 Hs.
  assert (He : 0 <= aop_challenge sha pp c3 < 2 ^ 256).
  { unfold aop_challenge. destruct c3 as [[? ?] ?]. match goal with |- context [set_bytes ?s] => pose proof (set_bytes_bound s) as B end.
    rewrite Hd in B. exact B. }
  assert (P : 2 ^ 4096 = 2 ^ 2048 * 2 ^ 2048) by (rewrite <- Z.pow_add_r by (clear; lia); apply f_equal; reflexivity).
  assert (Q : 0 < 2 ^ 2048) by (apply Z.pow_pos_nonneg; clear; lia).
  assert (B0 : x0 + x1 + x2 <= 2 ^ 2051).
  { replace (2 ^ 2051) with (8 * 2 ^ 2048) by (change 8 with (2 ^ 3); rewrite <- Z.pow_add_r by (clear; lia); apply f_equal; reflexivity). rewrite P in Hx. revert Q Hx.
    generalize (2 ^ 2048). clear -H0 H1 H2 Hs. intros W Q Hx.
    assert (C : forall y, 0 <= y -> y * y <= 4 * (W * W) -> y <= 2 * W) by (intros y Hy Hyy; apply Z.square_le_simpl_nonneg; lia).
    pose proof (C x0 H0 ltac:(nia)). pose proof (C x1 H1 ltac:(nia)). pose proof (C x2 H2 ltac:(nia)). lia. }
  assert (Y : 0 <= x0 + x1 + x2) by (clear -H0 H1 H2; lia). clear -He B0 Y. revert He B0 Y.
  generalize (aop_challenge sha pp c3) (x0 + x1 + x2). intros e y He B0 Y.
  apply (distance_step (2 ^ 128) (2 ^ 256) (2 ^ 2051) (mLmt zkAoPB) e y 2 3); [apply Z.pow_nonneg; clear; lia|exact He|exact Y|exact B0| |clear; lia|reflexivity].
  rewrite mLmt_same. rewrite <- !Z.pow_add_r by (clear; lia). apply Z.pow_le_mono_r; clear; lia.
Qed.

Lemma rp_response_eq : forall sha TS pp r a b x k x1 x2 x3, pp_ok pp -> TS (4 * ((b - x) * (x - a)) + 1) = Ret (x1, x2, x3) ->
  exists c3, commitFromTS pp (rc_r3 k) (x1, x2, x3) = Ret c3 /\ forall m4, exists pf,
    RP_Prove sha TS pp r a b x (with_m4 k m4) = Ret pf /\
    let '(m0, m1, m2, m3) := m4 in let e := rp_challenge sha pp a b c3 in
    rr_Z4 (rp_resp pf) = (e * (b - x) + m0, e * x1 + m1, e * x2 + m2, e * x3 + m3).
Proof.
  intros sha TS pp r a b x k x1 x2 x3 Hpp Hts.
  assert (Sh : Z.shiftl ((b - x) * (x - a)) 2 + 1 = 4 * ((b - x) * (x - a)) + 1) by (rewrite Z.shiftl_mul_pow2 by lia; change (2 ^ 2) with 4; ring).
  destruct (RP_Prove_returns sha TS pp r a b x k _ Hpp Hts) as (pf0 & E0 & _).
  unfold RP_Prove in E0. destruct (calC pp r x) as [c| |]; try discriminate. cbn [bind] in E0. destruct (calCa pp a c); try discriminate. cbn [bind] in E0.
  rewrite Sh, Hts in E0. cbn [bind] in E0.
  destruct (commitFromTS pp (rc_r3 k) (x1, x2, x3)) as [c3| |] eqn:Ec; try discriminate. clear E0. exists c3. split; [reflexivity|].
  intros [[[m0 m1] m2] m3].
  destruct (RP_Prove_returns sha TS pp r a b x (with_m4 k (m0, m1, m2, m3)) _ Hpp Hts) as (pf & E & _). exists pf. split; [exact E|].
  unfold RP_Prove in E. destruct (calC pp r x) as [c'| |]; try discriminate. cbn [bind] in E. destruct (calCa pp a c'); try discriminate. cbn [bind] in E.
  rewrite Sh, Hts in E. cbn [bind] in E. change (rc_r3 (with_m4 k (m0, m1, m2, m3))) with (rc_r3 k) in E. rewrite Ec in E. cbn [bind] in E.
  destruct (each4 _ _ _) as [d4| |]; try discriminate. cbn [bind] in E. destruct (secondPartH _ _ _ _ _) as [d| |]; try discriminate. cbn [bind] in E.
  cbn [with_m4 rc_m4 rc_s4] in E. destruct (rc_r3 k) as [[r1 r2] r3]. destruct (rc_s4 k) as [[[s0 s1] s2] s3]. injection E as <-. reflexivity.
Qed.
Theorem C79_RP_z_hides_partial : forall sha TS pp r a b x k x1 x2 x3, pp_ok pp -> TS (4 * ((b - x) * (x - a)) + 1) = Ret (x1, x2, x3) ->
  x <= b -> 0 <= x1 -> 0 <= x2 -> 0 <= x3 ->
  exists c3, commitFromTS pp (rc_r3 k) (x1, x2, x3) = Ret c3 /\ forall E : Int4 -> bool,
  Z.abs (hits4 (fun m => match RP_Prove sha TS pp r a b x (with_m4 k m) with Ret pf => E (rr_Z4 (rp_resp pf)) | _ => false end) (mLmt rpB)
     - hits4 E (mLmt rpB)) <= rp_challenge sha pp a b c3 * ((b - x) + x1 + x2 + x3) * (mLmt rpB + 1) ^ 3.
Proof.
  intros sha TS pp r a b x k x1 x2 x3 Hpp Hts Hx H1 H2 H3.
  destruct (rp_response_eq sha TS pp r a b x k x1 x2 x3 Hpp Hts) as (c3 & Ec & Er). exists c3. split; [exact Ec|]. intros E.
  set (e := rp_challenge sha pp a b c3) in *.
  assert (He : 0 <= e) by (unfold e, rp_challenge; destruct c3 as [[? ?] ?]; apply set_bytes_bound).
  assert (HM : 0 <= mLmt rpB) by (apply Z.pow_nonneg; lia). set (M := mLmt rpB) in *. clearbody M.
  transitivity ((e * (b - x) + e * x1 + e * x2 + e * x3) * (M + 1) ^ 3); [|nia].
  erewrite <- (hits4_shift E M (e * (b - x)) (e * x1) (e * x2) (e * x3)); try nia. apply Z.eq_le_incl. f_equal. f_equal.
  unfold hits4. apply sum_ext. intros m0 _. apply sum_ext. intros m1 _. apply sum_ext. intros m2 _. apply sum_ext. intros m3 _.
  destruct (Er (m0, m1, m2, m3)) as (pf & Ep & Ez). rewrite Ep, Ez. reflexivity.
Qed.
(** one part in 2^128 for 32-byte digests when the range is narrower than 2^3965 *)
Theorem C79_RP_z_distance : forall sha pp a b c3 x x1 x2 x3, (forall s, String.length (sha s) = 32%nat) ->
  a <= x <= b -> b - a < 2 ^ 3965 -> 0 <= x1 -> 0 <= x2 -> 0 <= x3 -> x1 * x1 + x2 * x2 + x3 * x3 = 4 * ((b - x) * (x - a)) + 1 ->
  2 ^ 128 * (rp_challenge sha pp a b c3 * ((b - x) + x1 + x2 + x3) * (mLmt rpB + 1) ^ 3) <= (mLmt rpB + 1) ^ 4.
Proof.
  intros sha pp a b c3 x x1 x2 x3 Hd Hx Hw H1 H2 H3 Hs.
  assert (He : 0 <= rp_challenge sha pp a b c3 < 2 ^ 256).
  { unfold rp_challenge. destruct c3 as [[? ?] ?]. match goal with |- context [set_bytes ?s] => pose proof (set_bytes_bound s) as B end.
    rewrite Hd in B. exact B. }
  assert (Q : 0 < 2 ^ 3965) by (apply Z.pow_pos_nonneg; clear; lia).
  assert (B0 : (b - x) + x1 + x2 + x3 <= 2 ^ 3968).
  { replace (2 ^ 3968) with (8 * 2 ^ 3965) by (change 8 with (2 ^ 3); rewrite <- Z.pow_add_r by (clear; lia); apply f_equal; reflexivity). revert Q Hw.
    generalize (2 ^ 3965). clear -Hx H1 H2 H3 Hs. intros W Q Hw.
    set (u := b - x) in *. set (v := x - a) in *. assert (U : 0 <= u) by lia. assert (V : 0 <= v) by lia. assert (UV : u + v < W) by lia.
    clear -Q H1 H2 H3 Hs U V UV. assert (4 * (u * v) <= (u + v) * (u + v)) by (pose proof (Z.square_nonneg (u - v)); nia). assert (S2 : (u + v) * (u + v) <= (W - 1) * (W - 1)) by (apply Z.square_le_mono_nonneg; lia).
    assert ((u + v) * (u + v) + 1 <= W * W) by nia.
    assert (C : forall y, 0 <= y -> y * y <= W * W -> y <= W) by (intros y Hy Hyy; apply Z.square_le_simpl_nonneg; lia).
    pose proof (C x1 H1 ltac:(nia)). pose proof (C x2 H2 ltac:(nia)). pose proof (C x3 H3 ltac:(nia)). lia. }
  assert (Y : 0 <= (b - x) + x1 + x2 + x3) by (clear -Hx H1 H2 H3; lia). clear -He B0 Y. revert He B0 Y.
  generalize (rp_challenge sha pp a b c3) (b - x + x1 + x2 + x3). intros e y He B0 Y.
  apply (distance_step (2 ^ 128) (2 ^ 256) (2 ^ 3968) (mLmt rpB) e y 3 4); [apply Z.pow_nonneg; clear; lia|exact He|exact Y|exact B0| |clear; lia|reflexivity].
  rewrite mLmt_same_rp. rewrite <- !Z.pow_add_r by (clear; lia). apply Z.pow_le_mono_r; clear; lia.
Qed.

(** The t part does not hide the coins r_i of the commitments: the challenge is a whole 256-bit digest, and the
    mask s_i only goes up to 2^256 * N. With r0 = N the event "t0 > 2^256 * N" has (2^256 - 1) * N of the
    2^256 * N + 1 coins s0; with r0 = 0 it has none. *)
Definition ones_sha (_ : string) : string := String.concat EmptyString (repeat (String "255" EmptyString) 32).

Lemma count_above : forall a M, 0 <= a <= M + 1 -> Z.of_nat (count (fun s => M <? a + s) (Z.to_nat (M + 1))) = a.
Proof.
  intros a M Ha. assert (G : forall n : nat, Z.of_nat n <= M + 1 -> Z.of_nat (count (fun s => M <? a + s) n) = Z.max 0 (Z.of_nat n - (M + 1 - a))).
  { induction n as [|n IH]; intros Hn; [cbn; lia|]. rewrite count_S, Nat2Z.inj_add, IH by lia. destruct (Z.ltb_spec M (a + Z.of_nat n)); lia. }
  rewrite G by lia. lia.
Qed.
Definition t0_above (sha : string -> string) TS pp (r x : Z) (k : aop_coins) (limit : Z) (s0 : Z) : bool :=
  match AoP_Prove sha TS pp r x (with_s3 k (let '(_, s1, s2) := ac_s3 k in (s0, s1, s2))) with
  | Ret (_, pf) => let '(t0, _, _) := ar_T3 (ap_response pf) in limit <? t0 | _ => false end.

Theorem C79_AoP_t_refuted : exists sha : string -> string, (forall s, String.length (sha s) = 32%nat) /\
  forall TS pp r x k ts, pp_ok pp -> TS (4 * x + 1) = Ret ts -> let limit := sLmt pp in
    let coins r0 := with_r3 k (let '(_, r1, r2) := ac_r3 k in (r0, r1, r2)) in
    Z.of_nat (count (t0_above sha TS pp r x (coins 0) limit) (Z.to_nat (limit + 1))) = 0 /\
    Z.of_nat (count (t0_above sha TS pp r x (coins (ppN pp)) limit) (Z.to_nat (limit + 1))) = limit - ppN pp.
Proof.
  exists ones_sha. split; [reflexivity|]. intros TS pp r x k [[x0 x1] x2] Hpp Hts limit coins.
  assert (HN : 0 < ppN pp) by (destruct Hpp; lia).
  assert (Gen : forall r0, 0 <= r0 <= ppN pp -> Z.of_nat (count (t0_above ones_sha TS pp r x (coins r0) limit) (Z.to_nat (limit + 1))) = (2 ^ 256 - 1) * r0).
  { intros r0 Hr0. destruct (aop_response_eq ones_sha TS pp r x (coins r0) x0 x1 x2 Hpp Hts) as (c3 & _ & Er).
    assert (Ee : aop_challenge ones_sha pp c3 = 2 ^ 256 - 1) by (unfold aop_challenge; destruct c3 as [[? ?] ?]; unfold ones_sha; vm_compute; reflexivity).
    assert (EL : limit = 2 ^ 256 * ppN pp) by reflexivity.
    assert (P256 : 0 < 2 ^ 256) by (apply Z.pow_pos_nonneg; lia).
    rewrite <- (count_above ((2 ^ 256 - 1) * r0) limit) by nia. f_equal. apply count_ext. intros s Hs. unfold t0_above.
    unfold coins at 2. cbn [with_r3 ac_s3]. 
    destruct (ac_s3 k) as [[s0 s1] s2] eqn:Es. destruct (Er (ac_m3 k) (s, s1, s2)) as [cm Hcm].
    rewrite Ee in Hcm. change (ac_m3 k) with (ac_m3 (coins r0)) in Hcm.
    change (with_m3 (coins r0) (ac_m3 (coins r0))) with (coins r0) in Hcm.
    unfold coins at 1 in Hcm. cbn [with_r3 ac_r3] in Hcm. destruct (ac_r3 k) as [[q0 q1] q2] eqn:Eq. destruct (ac_m3 (coins r0)) as [[m0 m1] m2].
    cbv zeta in Hcm. destruct Hcm as [C Hcm]. rewrite Hcm. cbn [ap_response ar_T3]. reflexivity. }
  split.
  - rewrite Gen by lia. apply Z.mul_0_r.
  - rewrite Gen by lia. change limit with (2 ^ 256 * ppN pp). ring.
Qed.
Example C79_case :
  let pp := {| ppN := 77; ppG := 4; ppH := 9 |} in
  pp_ok pp /\ toy_squares (4 * 1 + 1) = Ret (2, 1, 0) /\ 0 < mLmt zkAoPB /\ sLmt pp - ppN pp > sLmt pp / 2.
Proof. cbv zeta. split; [unfold pp_ok; cbn; repeat split; (lia || reflexivity)|]. split; [reflexivity|]. split; vm_compute; reflexivity. Qed.

(** ** C80. ZKPoKE *)
(** what the prover answers, for the challenges c and l of its transcript *)
Theorem C80_ZKPoKE_response : forall sha is_prime fuel pp u x w k rhox rhok pf, 1 < ppN pp -> test_ok is_prime ->
  0 <= u -> 0 <= x -> 0 <= k ->
  ZKPoKEProve sha is_prime fuel pp u x w k rhox rhok = Ret (Some pf) ->
  exists c l t, GetIntChallenge sha (zkpoke_transcript pp u w (zk_z pf) (zk_Ag pf) (zk_Au pf)) = (c, t) /\
    (exists t', GetPrimeChallenge sha is_prime fuel t = Ret (l, t')) /\ 0 <= c <= 2 ^ 239 /\ 1 < l <= 2 ^ 239 /\
    zk_rx pf = (c * x + k) mod l /\ zk_rrho pf = (c * rhox + rhok) mod l /\
    zk_Qu pf = u ^ ((c * x + k) / l) mod ppN pp.
Proof.
  intros sha is_prime fuel pp u x w k rhox rhok pf HN Hp Hu Hx Hk H. unfold ZKPoKEProve in H.
  destruct (negb _); [discriminate|].
  destruct (MultiExp (ppG pp) x (ppH pp) rhox (ppN pp)) as [z| |]; try discriminate. cbn [bind] in H.
  destruct (MultiExp (ppG pp) k (ppH pp) rhok (ppN pp)) as [Ag| |]; try discriminate. cbn [bind] in H. cbv zeta in H.
  destruct (GetIntChallenge sha (zkpoke_transcript pp u w z Ag (exp_recv 0 u k (ppN pp)))) as [c t] eqn:Ec.
  destruct (GetPrimeChallenge sha is_prime fuel t) as [[l t']| |] eqn:El; try discriminate. cbn [bind] in H.
  pose proof (prime_challenge_pos sha is_prime Hp _ _ _ _ El) as Hl.
  assert (Hc : 0 <= c <= 2 ^ 239).
  { injection Ec as <- _. apply wrap_max_range. }
  assert (Hl2 : l <= 2 ^ 239).
  { assert (Et : maxlength t = Max252) by (injection Ec as _ <-; reflexivity).
    unfold GetPrimeChallenge in El. rewrite Et in El. destruct (FS_HashToPrime sha is_prime fuel (info t) Max252) as [v| |] eqn:Ev; try discriminate.
    cbn [bind] in El. injection El as -> _. unfold FS_HashToPrime in Ev. clear -Ev. revert Ev. generalize (sha (written (info t))) as s.
    induction fuel as [|f IH]; intros s H; [discriminate|]. cbn [fs_loop] in H. destruct (is_prime (wrapNumber s Max252)).
    - injection H as <-. apply wrap_max_range.
    - now apply IH in H. }
  rewrite !div_mod_pos in H by lia. cbn [bind] in H.
  destruct (MultiExp (ppG pp) ((c * x + k) / l) (ppH pp) _ (ppN pp)) as [Qg| |]; try discriminate. cbn [bind] in H. injection H as <-.
  cbn [zk_z zk_Ag zk_Au zk_rx zk_rrho zk_Qu]. exists c, l, t. split; [exact Ec|]. split; [now exists t'|]. split; [exact Hc|]. split; [lia|].
  split; [reflexivity|]. split; [reflexivity|].
  assert (0 <= (c * x + k) / l) by (apply Z.div_pos; nia).
  unfold exp_recv. rewrite big_exp_nonneg by lia. reflexivity.
Qed.

Lemma sum_periodic : forall f L a a' M, 0 < L -> (forall m, 0 <= m -> 0 <= f m <= 1) -> (forall m, 0 <= m -> f (m + L) = f m) ->
  0 <= a -> 0 <= a' -> Z.abs (sum (fun m => f (a + m)) M - sum (fun m => f (a' + m)) M) <= L.
Proof.
  intros f L a a' M HL Hf Hp Ha Ha'.
  assert (Hq : forall q m, 0 <= q -> 0 <= m -> f (m + q * L) = f m).
  { intros q m Hq. revert q Hq m. refine (natlike_ind _ _ _); [intros m Hm; f_equal; lia|].
    intros q Hq IH m Hm. replace (m + Z.succ q * L) with ((m + q * L) + L) by ring. rewrite Hp by nia. now apply IH. }
  assert (Hr : forall b, 0 <= b -> sum (fun m => f (b + m)) M = sum (fun m => f (b mod L + m)) M).
  { intros b Hb. apply sum_ext. intros m Hm. pose proof (Z.div_mod b L ltac:(lia)) as D. pose proof (Z.mod_pos_bound b L HL).
    rewrite D at 1. replace (L * (b / L) + b mod L + m) with ((b mod L + m) + b / L * L) by ring. apply Hq; [apply Z.div_pos|]; lia. }
  rewrite (Hr a Ha), (Hr a' Ha'). pose proof (Z.mod_pos_bound a L HL) as B. pose proof (Z.mod_pos_bound a' L HL) as B'.
  set (p := a mod L) in *. set (q := a' mod L) in *. clearbody p q.
  assert (G : forall p q, 0 <= p <= q -> q < L -> Z.abs (sum (fun m => f (q + m)) M - sum (fun m => f (p + m)) M) <= L).
  { clear p q B B'. intros p q B B'. pose proof (sum_shift (fun m => f (p + m)) 1 (q - p) M ltac:(intros m Hm; apply Hf; lia) ltac:(lia)) as S.
    rewrite (sum_ext (fun m => f (q + m)) (fun m => f (p + (q - p + m)))) by (intros m Hm; f_equal; lia). cbv beta in S. lia. }
  destruct (Z.le_ge_cases p q) as [C|C]; [rewrite <- Z.abs_opp; replace (- (sum (fun m => f (p + m)) M - sum (fun m => f (q + m)) M)) with (sum (fun m => f (q + m)) M - sum (fun m => f (p + m)) M) by lia|]; apply G; lia.
Qed.

(** For fixed challenges, the remainder rx hides the exponent x: for every test on rx, the numbers of coins k for
    which two exponents pass it differ by at most l, out of N * 2^254. The same for rrho and rhox. *)
Theorem C80_remainder_hides : forall pp c l x x' (E : Z -> bool), 0 < ppN pp -> 0 <= c -> 0 < l -> 0 <= x -> 0 <= x' ->
  let M := Z.to_nat (zkpoke_coin_bound pp) in
  Z.abs (Z.of_nat (count (fun k => E ((c * x + k) mod l)) M) - Z.of_nat (count (fun k => E ((c * x' + k) mod l)) M)) <= l.
Proof.
  intros pp c l x x' E HN Hc Hl Hx Hx' M. rewrite !count_sum.
  apply (sum_periodic (fun s => if E (s mod l) then 1 else 0) l (c * x) (c * x') M); try nia.
  - intros m _. destruct (E _); lia.
  - intros m _. rewrite <- (Z.mul_1_l l) at 1. now rewrite Z.mod_add by lia.
Qed.
(** and that is at most one part in 2^128 when N has at least 114 bits *)
Theorem C80_remainder_distance : forall pp l, 2 ^ 113 <= ppN pp -> l <= 2 ^ 239 -> 2 ^ 128 * l <= zkpoke_coin_bound pp.
Proof.
  intros pp l HN Hl. unfold zkpoke_coin_bound. rewrite Z.shiftl_mul_pow2 by lia.
  change (2 ^ 254) with (2 ^ 113 * 2 ^ 141) in *. change (2 * 128 - 2) with 254. 
  transitivity (2 ^ 128 * 2 ^ 239); [apply Z.mul_le_mono_nonneg_l; [|assumption]; discriminate|].
  transitivity (2 ^ 113 * 2 ^ 254); [discriminate|]. apply Z.mul_le_mono_nonneg_r; [discriminate|assumption].
Qed.
(** Remainder and quotient together: Qu is u to the quotient, and if u has order d, every test on the pair
    (rx, Qu) separates two exponents on at most l * d of the N * 2^254 coins. With l up to 2^239 and d up to N
    this bound is 2^-15, not 2^-128. *)
Theorem C80_pair_hides_partial : forall pp c l d u x x' (E : Z * Z -> bool), 0 < ppN pp -> 0 <= c -> 0 < l -> 0 <= x -> 0 <= x' ->
  is_order (ppN pp) u d ->
  let M := Z.to_nat (zkpoke_coin_bound pp) in
  let view y k := ((c * y + k) mod l, u ^ ((c * y + k) / l) mod ppN pp) in
  Z.abs (Z.of_nat (count (fun k => E (view x k)) M) - Z.of_nat (count (fun k => E (view x' k)) M)) <= l * d /\
  (l <= 2 ^ 239 -> d <= ppN pp -> 2 ^ 15 * (l * d) <= zkpoke_coin_bound pp).
Proof.
  intros pp c l d u x x' E HN Hc Hl Hx Hx' Ho M view. pose proof Ho as (Hd & _). split.
  - rewrite !count_sum. unfold view.
    apply (sum_periodic (fun s => if E (s mod l, u ^ (s / l) mod ppN pp) then 1 else 0) (l * d) (c * x) (c * x') M); try nia.
    + intros m _. destruct (E _); lia.
    + intros m Hm. rewrite (Z.mul_comm l d), Z.mod_add, Z.div_add by lia.
      assert (0 <= m / l) by (apply Z.div_pos; lia).
      rewrite (order_pow (ppN pp) u d (m / l + d)), (order_pow (ppN pp) u d (m / l)) by (assumption || lia).
      rewrite <- (Z.mul_1_l d) at 1. now rewrite Z.mod_add by lia.
  - intros Hl2 Hd2. unfold zkpoke_coin_bound. rewrite Z.shiftl_mul_pow2 by lia. change (2 * 128 - 2) with (239 + 15). rewrite Z.pow_add_r by lia.
    set (A := 2 ^ 239) in *. set (B := 2 ^ 15). assert (0 < B) by reflexivity. clearbody A B.
    assert (P : l * d <= A * ppN pp) by (apply Z.mul_le_mono_nonneg; lia).
    replace (ppN pp * (A * B)) with (B * (A * ppN pp)) by ring. apply Z.mul_le_mono_nonneg_l; [lia|exact P].
Qed.
(** The bound is reached: some test separates two exponents on as many coins as the coin range is away from a
    multiple of l * d. *)
Theorem C80_pair_distance : forall pp c l d u, 0 < ppN pp -> coprime u (ppN pp) -> 0 <= c -> 0 < l -> is_order (ppN pp) u d -> coprime c (l * d) ->
  let M := Z.to_nat (zkpoke_coin_bound pp) in
  let view y k := ((c * y + k) mod l, u ^ ((c * y + k) / l) mod ppN pp) in
  let t := zkpoke_coin_bound pp mod (l * d) in
  exists (E : Z * Z -> bool) x x', 0 <= x /\ 0 <= x' /\
    Z.of_nat (count (fun k => E (view x k)) M) - Z.of_nat (count (fun k => E (view x' k)) M) = Z.min t (l * d - t).
Proof.
  intros pp c l d u HN Hu Hc Hl Ho Hcp M view t. pose proof Ho as (Hd & _). assert (HP : 0 < l * d) by nia.
  assert (HM : 0 <= zkpoke_coin_bound pp) by (unfold zkpoke_coin_bound; rewrite Z.shiftl_mul_pow2 by lia; apply Z.mul_nonneg_nonneg; [lia|apply Z.pow_nonneg; lia]).
  pose proof (Z.mod_pos_bound (zkpoke_coin_bound pp) (l * d) HP) as Ht. fold t in Ht.
  set (N := ppN pp) in *.
  set (E := fun rv : Z * Z => existsb (fun s => (s mod l =? fst rv) && (u ^ (s / l) mod N =? snd rv)) (map Z.of_nat (seq 0 (Z.to_nat t)))).
  assert (EE : forall m, 0 <= m -> E (m mod l, u ^ (m / l) mod N) = (m mod (l * d) <? t)).
  { intros m Hm. assert (R : m mod (l * d) = m mod l + l * ((m / l) mod d)) by (apply Z.rem_mul_r; lia).
    pose proof (Z.mod_pos_bound m l Hl) as B1. pose proof (Z.mod_pos_bound (m / l) d Hd) as B2. pose proof (Z.div_pos m l Hm Hl) as B3.
    apply eq_true_iff_eq. unfold E. rewrite existsb_exists. cbn [fst snd]. rewrite Z.ltb_lt. split.
    - intros (s & Hs & H). apply in_map_iff in Hs. destruct Hs as (i & <- & Hi). apply in_seq in Hi. set (s := Z.of_nat i) in *.
      apply andb_prop in H. destruct H as [H1 H2]. apply Z.eqb_eq in H1. apply Z.eqb_eq in H2.
      assert (0 <= s < t) by lia. assert (0 <= s / l) by (apply Z.div_pos; lia).
      apply (order_inj N u d) in H2; [|assumption..].
      assert (R' : s mod (l * d) = s mod l + l * ((s / l) mod d)) by (apply Z.rem_mul_r; lia).
      rewrite R, <- H1, <- H2, <- R', Z.mod_small by lia. lia.
    - intros Hlt. exists (m mod (l * d)). pose proof (Z.mod_pos_bound m (l * d) HP) as B. split.
      + apply in_map_iff. exists (Z.to_nat (m mod (l * d))). split; [apply Z2Nat.id; lia|]. apply in_seq. lia.
      + assert (Q : m mod (l * d) / l = (m / l) mod d). { rewrite R. replace (m mod l + l * ((m / l) mod d)) with ((m / l) mod d * l + m mod l) by ring. rewrite Z.div_add_l, (Z.div_small (m mod l) l) by lia. apply Z.add_0_r. }
        assert (Q' : (m mod (l * d)) mod l = m mod l). { rewrite R, Z.mul_comm, Z.mod_add, Z.mod_mod by lia. reflexivity. }
        rewrite Q', Z.eqb_refl, Q. cbn [andb]. apply Z.eqb_eq. symmetry. now apply order_pow. }
  destruct (Z.gcd_bezout c (l * d) 1) as (a & b & Hab).
  { exact Hcp. }
  exists E, 0, ((t * a) mod (l * d)). pose proof (Z.mod_pos_bound (t * a) (l * d) HP) as Bx. split; [lia|]. split; [lia|].
  assert (Sx : (c * ((t * a) mod (l * d))) mod (l * d) = t mod (l * d)).
  { rewrite mul_mod_idem_r by lia. replace (c * (t * a)) with (t + (- (t * b)) * (l * d)) by (transitivity (t * (a * c + b * (l * d)) - t * b * (l * d)); [rewrite Hab; ring|ring]).
    now rewrite Z.mod_add by lia. }
  pose proof (shift_distance (l * d) (zkpoke_coin_bound pp) HP HM) as SD. cbv zeta in SD. fold t in SD. fold M in SD. rewrite <- SD. f_equal.
  - f_equal. apply count_ext. intros k Hk. unfold view, below. rewrite EE by lia. do 2 f_equal. lia.
  - f_equal. apply count_ext. intros k Hk. unfold view, below. rewrite EE by nia. f_equal.
    rewrite <- Z.add_mod_idemp_l, Sx, Z.add_mod_idemp_l by lia. reflexivity.
Qed.
(** a prime of the form k 2^n + 1 *)
Definition proth_l : Z := 195 * 2 ^ 230 + 1.
Lemma proth_l_power : Zpow_mod 17 (195 * 2 ^ (230 - 1)) proth_l = proth_l - 1.
Proof. vm_compute. reflexivity. Qed.
Lemma proth_l_prime : prime proth_l.
Proof.
  apply (proth 230 195 17); [lia|lia|apply Z.ltb_lt; vm_compute; reflexivity|]. rewrite <- Zpow_mod_correct by discriminate. exact proth_l_power.
Qed.
Lemma proth_l_size : 1 < proth_l <= 2 ^ 239.
Proof. split; [apply Z.ltb_lt|apply Z.leb_le]; vm_compute; reflexivity. Qed.
Lemma proth_l_gap : 3 * 2 ^ 254 <= 2 ^ 19 * Z.min ((3 * 2 ^ 254) mod (2 * proth_l)) (2 * proth_l - (3 * 2 ^ 254) mod (2 * proth_l)).
Proof. apply Z.leb_le. vm_compute. reflexivity. Qed.
(** With a modulus of 2048 bits, a base of order 2/3 of it and a prime challenge l of 238 bits, some test tells
    two exponents apart with probability 2^-19. *)
Theorem C80_pair_hides_refuted : exists pp u d l, 2 ^ 2047 <= ppN pp < 2 ^ 2048 /\ coprime u (ppN pp) /\ is_order (ppN pp) u d /\ prime l /\ 1 < l <= 2 ^ 239 /\
  forall c, 0 < c <= 2 ^ 239 -> coprime c 6 -> coprime c l ->
  let M := Z.to_nat (zkpoke_coin_bound pp) in
  let view y k := ((c * y + k) mod l, u ^ ((c * y + k) / l) mod ppN pp) in
  exists (E : Z * Z -> bool) x x', 0 <= x /\ 0 <= x' /\
    2 ^ 19 * (Z.of_nat (count (fun k => E (view x k)) M) - Z.of_nat (count (fun k => E (view x' k)) M)) >= zkpoke_coin_bound pp.
Proof.
  exists {| ppN := 3 ^ (1291 + 1); ppG := 2; ppH := 4 |}, 2, (2 * 3 ^ 1291), proth_l. cbn [ppN].
  assert (Hu : coprime 2 (3 ^ (1291 + 1))).
  { apply Zgcd_1_rel_prime, Zpow_facts.rel_prime_Zpower_r; [clear; lia|]. apply Zgcd_1_rel_prime. reflexivity. }
  assert (O : is_order (3 ^ (1291 + 1)) 2 (2 * 3 ^ 1291)) by (apply order_two; clear; lia).
  assert (C3 : forall c, coprime c 3 -> coprime c (3 ^ 1291)).
  { intros c H. apply Zgcd_1_rel_prime, Zpow_facts.rel_prime_Zpower_r; [clear; lia|now apply Zgcd_1_rel_prime]. }
  assert (P3 : 0 < 3 ^ 1291) by (apply Z.pow_pos_nonneg; clear; lia).
  assert (EN : 3 ^ (1291 + 1) = 3 * 3 ^ 1291) by (rewrite Z.pow_add_r, Z.pow_1_r by (clear; lia); apply Z.mul_comm).
  split; [split; [apply Z.leb_le|apply Z.ltb_lt]; vm_compute; reflexivity|]. split; [exact Hu|]. split; [exact O|].
  split; [exact proth_l_prime|]. split; [exact proth_l_size|].
  revert Hu O C3 P3 EN. generalize (3 ^ (1291 + 1)) (3 ^ 1291). intros N A Hu O C3 P3 EN c Hc H6 Hcl.
  destruct proth_l_size as [L1 _]. pose proof proth_l_gap as I. revert L1 I Hcl. generalize proth_l. intros l L1 I Hcl.
  assert (Hcp : coprime c (l * (2 * A))).
  { assert (Mul : forall a b, coprime c a -> coprime c b -> coprime c (a * b)).
    { intros a b Ha Hb. apply Zgcd_1_rel_prime. apply rel_prime_mult; now apply Zgcd_1_rel_prime. }
    assert (Fac : forall a b, coprime c (a * b) -> coprime c a).
    { intros a b Hab. apply Zgcd_1_rel_prime. apply rel_prime_sym. apply rel_prime_div with (a * b); [apply rel_prime_sym; now apply Zgcd_1_rel_prime|apply Z.divide_factor_l]. }
    apply Mul; [exact Hcl|]. apply Mul; [exact (Fac 2 3 H6)|]. apply C3. exact (Fac 3 2 H6). }
  destruct (C80_pair_distance {| ppN := N; ppG := 2; ppH := 4 |} c l (2 * A) 2) as (E & x & x' & Hx & Hx' & D);
    [cbn [ppN]; clear -P3 EN; lia|exact Hu|clear -L1 P3 Hc; lia|clear -Hc P3 L1; lia|exact O|exact Hcp|].
  exists E, x, x'. split; [exact Hx|]. split; [exact Hx'|]. cbn [ppN] in D. rewrite D. clear D.
  assert (EB : zkpoke_coin_bound {| ppN := N; ppG := 2; ppH := 4 |} = A * (3 * 2 ^ 254)).
  { unfold zkpoke_coin_bound. cbn [ppN]. rewrite Z.shiftl_mul_pow2 by (clear; lia). rewrite EN. change (2 * 128 - 2) with 254. generalize (2 ^ 254). clear. intros. ring. }
  rewrite EB. revert I. generalize (3 * 2 ^ 254) (2 ^ 19). clear -P3 L1. intros X T I.
  replace (l * (2 * A)) with (A * (2 * l)) by ring. rewrite Z.mul_mod_distr_l by lia.
  rewrite <- Z.mul_sub_distr_l, Z.mul_min_distr_nonneg_l by lia. set (Y := Z.min _ _) in *. clearbody Y.
  apply Z.le_ge. rewrite Z.mul_assoc, (Z.mul_comm _ A), <- Z.mul_assoc. apply Z.mul_le_mono_nonneg_l; [lia|exact I].
Qed.
Example C80_case :
  let pp := {| ppN := 77; ppG := 4; ppH := 9 |} in
  (exists pf, ZKPoKEProve toy_sha toy_prime 50 pp 5 3 (5 ^ 3 mod 77) 10 6 7 = Ret (Some pf)) /\ is_order 77 34 2.
Proof.
  cbv zeta. split.
  - eexists. vm_compute. reflexivity.
  - split; [lia|]. split; [reflexivity|]. intros j Hj. assert (j = 1) by lia. subst j. discriminate.
Qed.

Print Assumptions C79_AoP_z_hides_partial.
Print Assumptions C79_AoP_z_distance.
Print Assumptions C79_RP_z_hides_partial.
Print Assumptions C79_RP_z_distance.
Print Assumptions C79_AoP_t_refuted.
Print Assumptions C80_ZKPoKE_response.
Print Assumptions C80_remainder_hides.
Print Assumptions C80_remainder_distance.
Print Assumptions C80_pair_hides_partial.
Print Assumptions C80_pair_distance.
Print Assumptions C80_pair_hides_refuted.
