(** Number theory for C80: Proth's criterion, the order of 2 modulo a power of 3, and how far a uniform
    number below M is from uniform modulo P. *)
From Coq Require Import ZArith Znumtheory List Bool Lia Wf_nat.
From Verif Require Import GoBigFacts Fermat SecurityProofs.
Import ListNotations.
Open Scope Z_scope.

Lemma prime_divisor : forall n, 1 < n -> exists q, prime q /\ (q | n).
Proof.
  intros n Hn. assert (K : forall m, 0 <= m -> 1 < m -> exists q, prime q /\ (q | m)).
  { refine (Z_lt_induction _ _). intros m IH Hm. destruct (prime_dec m) as [P|P]; [exists m; split; [exact P|apply Z.divide_refl]|].
    destruct (not_prime_divide m Hm P) as (d & Hd & D). destruct (IH d ltac:(lia) ltac:(lia)) as (q & Hq & Dq).
    exists q. split; [exact Hq|]. now apply Z.divide_trans with d. }
  apply K; lia.
Qed.

Lemma pow_mod_base : forall a q e, 0 < q -> 0 <= e -> (a mod q) ^ e mod q = a ^ e mod q.
Proof.
  intros a q e Hq. revert e. refine (natlike_ind _ _ _); [reflexivity|]. intros e He IH. rewrite !Z.pow_succ_r by lia.
  rewrite Z.mul_mod, IH, Z.mod_mod by lia. symmetry. now rewrite Z.mul_mod by lia.
Qed.
Lemma pow_one_mod : forall b q e, 1 < q -> 0 <= e -> b mod q = 1 -> b ^ e mod q = 1.
Proof. intros b q e Hq He H. rewrite <- pow_mod_base, H, Z.pow_1_l, Z.mod_small by lia. reflexivity. Qed.

(** exponents at which a unit is 1 are closed under gcd *)
Lemma gcd_closed : forall (Q : Z -> Prop), (forall a c, 0 < a < c -> Q a -> Q c -> Q (c - a)) ->
  forall n x y, x + y <= Z.of_nat n -> 0 < x -> 0 < y -> Q x -> Q y -> Q (Z.gcd x y).
Proof.
  intros Q H n. induction n as [|n IH]; intros x y Hs Hx Hy Qx Qy; [lia|].
  destruct (Z.lt_trichotomy x y) as [L|[E|L]].
  - replace (Z.gcd x y) with (Z.gcd x (y - x)) by apply Z.gcd_sub_diag_r. apply IH; try lia; [exact Qx|apply H; [lia|exact Qx|exact Qy]].
  - subst y. rewrite Z.gcd_diag, Z.abs_eq by lia. exact Qx.
  - rewrite Z.gcd_comm. replace (Z.gcd y x) with (Z.gcd y (x - y)) by apply Z.gcd_sub_diag_r. apply IH; try lia; [exact Qy|apply H; [lia|exact Qy|exact Qx]].
Qed.
Lemma pow_gcd_one : forall b q x y, 1 < q -> 0 < x -> 0 < y -> b ^ x mod q = 1 -> b ^ y mod q = 1 -> b ^ Z.gcd x y mod q = 1.
Proof.
  intros b q x y Hq Hx Hy. apply (gcd_closed (fun e => b ^ e mod q = 1)) with (n := Z.to_nat (x + y)); [|lia|exact Hx|exact Hy].
  intros a c Hac Ea Ec. assert (Hc : b ^ c = b ^ a * b ^ (c - a)) by (rewrite <- Z.pow_add_r; [f_equal|..]; clear -Hac; lia).
  rewrite Hc, Z.mul_mod, Ea, Z.mul_1_l, Z.mod_mod in Ec by (clear -Hq; lia). exact Ec.
Qed.

Lemma divide_pow2 : forall n, 0 <= n -> forall g, 0 <= g -> (g | 2 ^ n) -> (2 ^ n | g) \/ (n <> 0 /\ (g | 2 ^ (n - 1))).
Proof.
  refine (natlike_ind _ _ _).
  - intros g Hg _. left. exists g. change (2 ^ 0) with 1. lia.
  - intros n Hn IH g Hg D. destruct (Z.Even_or_Odd g) as [[h E]|[h E]].
    + assert (D' : (h | 2 ^ n)). { destruct D as [k Hk]. exists k. rewrite Z.pow_succ_r in Hk by lia. nia. }
      destruct (IH h ltac:(lia) D') as [[k Hk]|[Hn0 [k Hk]]].
      * left. exists k. rewrite Z.pow_succ_r by lia. rewrite E, Hk. ring.
      * right. split; [lia|]. exists k. replace (Z.succ n - 1) with (Z.succ (n - 1)) by lia. rewrite Z.pow_succ_r by lia. rewrite Hk, E. ring.
    + right. split; [lia|]. replace (Z.succ n - 1) with n by lia. apply (Gauss g 2); [now rewrite <- Z.pow_succ_r by lia|].
      apply rel_prime_sym, prime_rel_prime; [exact prime_2|]. intros [k Hk]. lia.
Qed.

(** Proth *)
Lemma proth_factor : forall n k a q, 0 < n -> 0 < k -> let p := k * 2 ^ n + 1 in
  a ^ (k * 2 ^ (n - 1)) mod p = p - 1 -> prime q -> (q | p) -> (2 ^ n | q - 1).
Proof.
  intros n k a q Hn Hk p Ha Hq Dq. pose proof (prime_ge_2 q Hq) as Hq2.
  assert (E2 : 2 ^ n = 2 * 2 ^ (n - 1)) by (rewrite <- Z.pow_succ_r by lia; f_equal; lia).
  assert (P2 : 0 < 2 ^ (n - 1)) by (apply Z.pow_pos_nonneg; lia).
  assert (Hp : 1 < p) by (unfold p; nia).
  assert (Q2 : q <> 2). { intros ->. destruct Dq as [z Hz]. unfold p in Hz. lia. }
  set (b := a ^ k).
  assert (B : b ^ 2 ^ (n - 1) mod q = q - 1).
  { unfold b. rewrite <- Z.pow_mul_r by lia. destruct Dq as [z Hz].
    assert (M : a ^ (k * 2 ^ (n - 1)) mod q = (p - 1) mod q).
    { rewrite <- Ha. rewrite (Z.div_mod (a ^ (k * 2 ^ (n - 1))) p) at 1 by lia. rewrite Hz at 1.
      replace (z * q * (a ^ (k * 2 ^ (n - 1)) / p)) with (z * (a ^ (k * 2 ^ (n - 1)) / p) * q) by ring.
      rewrite Z.add_comm, Z.mod_add by lia. reflexivity. }
    rewrite M. rewrite Hz. replace (z * q - 1) with (q - 1 + (z - 1) * q) by ring. rewrite Z.mod_add, Z.mod_small by lia. reflexivity. }
  assert (BN : b ^ 2 ^ n mod q = 1).
  { rewrite E2, Z.mul_comm, Z.pow_mul_r by lia. rewrite <- pow_mod_base, B by lia. rewrite Z.pow_2_r.
    replace ((q - 1) * (q - 1)) with (1 + (q - 2) * q) by ring. rewrite Z.mod_add, Z.mod_small by lia. reflexivity. }
  assert (ND : ~ (q | b)).
  { intros D. assert (Z0 : b ^ 2 ^ (n - 1) mod q = 0).
    { replace (2 ^ (n - 1)) with (Z.succ (2 ^ (n - 1) - 1)) by lia. rewrite Z.pow_succ_r by lia. apply Z.mod_divide; [lia|]. now apply Z.divide_mul_l. }
    rewrite Z0 in B. clear -B Hq2. lia. }
  pose proof (fermat q b Hq ND) as F.
  pose proof (pow_gcd_one b q (2 ^ n) (q - 1) ltac:(lia) ltac:(lia) ltac:(lia) BN F) as G.
  destruct (divide_pow2 n ltac:(lia) (Z.gcd (2 ^ n) (q - 1)) (Z.gcd_nonneg _ _) (Z.gcd_divide_l _ _)) as [D|[_ [z Hz]]].
  - apply Z.divide_trans with (1 := D). apply Z.gcd_divide_r.
  - exfalso. set (g := Z.gcd (2 ^ n) (q - 1)) in *. assert (Z1 : 0 <= g) by apply Z.gcd_nonneg. assert (Z2 : 0 <= z) by (clear -Z1 Hz P2; nia).
    rewrite Hz, Z.mul_comm, Z.pow_mul_r in B by assumption. rewrite pow_one_mod in B; [clear -B Q2; lia|clear -Hq2; lia|exact Z2|exact G].
Qed.
Theorem proth : forall n k a, 0 < n -> 0 < k -> k < 2 ^ n -> let p := k * 2 ^ n + 1 in
  a ^ (k * 2 ^ (n - 1)) mod p = p - 1 -> prime p.
Proof.
  intros n k a Hn Hk Hkn p Ha. assert (Hp : 1 < p) by (unfold p; nia).
  destruct (prime_dec p) as [|NP]; [assumption|exfalso]. destruct (not_prime_divide p Hp NP) as (x & Hx & [y Hy]).
  assert (L : forall z, 1 < z -> (z | p) -> 2 ^ n < z).
  { intros z Hz Dz. destruct (prime_divisor z Hz) as (q & Hq & Dq). pose proof (prime_ge_2 q Hq).
    assert (D := proth_factor n k a q Hn Hk Ha Hq (Z.divide_trans _ _ _ Dq Dz)).
    apply Z.divide_pos_le in D; [|lia]. apply Z.divide_pos_le in Dq; lia. }
  assert (2 ^ n < x) by (apply L; [lia|exists y; exact Hy]).
  assert (1 < y) by nia.
  assert (2 ^ n < y) by (apply L; [lia|exists x; lia]).
  unfold p in Hy. nia.
Qed.

(** the order of 2 modulo 3^m *)
Lemma four_pow : forall m, 0 <= m -> exists a, 4 ^ 3 ^ m = 1 + 3 ^ (m + 1) * a /\ a mod 3 = 1.
Proof.
  refine (natlike_ind _ _ _).
  - exists 1. split; reflexivity.
  - intros m Hm (a & Ea & Ma). rewrite Z.pow_succ_r, Z.mul_comm, Z.pow_mul_r by lia. rewrite Ea.
    exists (a + 3 ^ (m + 1) * a ^ 2 + 3 ^ (m + 1) * 3 ^ m * a ^ 3). split.
    + replace (Z.succ m + 1) with (m + 2) by lia. rewrite !Z.pow_add_r by lia. change (3 ^ 1) with 3. change (3 ^ 2) with 9. ring.
    + rewrite Z.pow_add_r by lia. change (3 ^ 1) with 3.
      replace (a + 3 ^ m * 3 * a ^ 2 + 3 ^ m * 3 * 3 ^ m * a ^ 3) with (a + (3 ^ m * a ^ 2 + 3 ^ m * 3 ^ m * a ^ 3) * 3) by ring.
      now rewrite Z.mod_add by lia.
Qed.
(** (1 + x)^e = 1 + e x modulo x^2 *)
Lemma pow_linear : forall x e, 0 <= e -> exists z, (1 + x) ^ e = 1 + e * x + z * x * x.
Proof.
  intros x. refine (natlike_ind _ _ _); [exists 0; rewrite Z.pow_0_r; ring|]. intros e He [z E]. rewrite Z.pow_succ_r, E by lia.
  exists (z + e + z * x). ring.
Qed.
Lemma four_one : forall m, 0 <= m -> forall i, 0 <= i -> (3 ^ (m + 1) | 4 ^ i - 1) <-> (3 ^ m | i).
Proof.
  refine (natlike_ind _ _ _).
  - intros i Hi. split; [intros _; apply Z.divide_1_l|intros _]. change (3 ^ (0 + 1)) with 3.
    destruct (pow_linear 3 i Hi) as [z E]. change (1 + 3) with 4 in E. rewrite E. exists (i + z * 3). ring.
  - intros m Hm IH i Hi. replace (Z.succ m + 1) with (Z.succ (m + 1)) by lia.
    assert (P : 0 < 3 ^ m) by (apply Z.pow_pos_nonneg; lia). assert (P1 : 3 ^ (m + 1) = 3 * 3 ^ m) by (rewrite Z.add_1_r, Z.pow_succ_r; lia).
    assert (K : forall e, 0 <= e -> (3 ^ Z.succ (m + 1) | 4 ^ (3 ^ m * e) - 1) <-> (3 | e)).
    { intros e He. rewrite Z.pow_mul_r by lia. destruct (four_pow m Hm) as (a & Ea & Ma). rewrite Ea.
      destruct (pow_linear (3 ^ (m + 1) * a) e He) as [z Ez]. rewrite Ez. rewrite Z.pow_succ_r by lia.
      replace (1 + e * (3 ^ (m + 1) * a) + z * (3 ^ (m + 1) * a) * (3 ^ (m + 1) * a) - 1) with (3 ^ (m + 1) * (e * a + 3 * (z * a * a * 3 ^ m))) by (rewrite P1; ring).
      rewrite (Z.mul_comm 3 (3 ^ (m + 1))). rewrite Z.mul_divide_cancel_l by lia.
      split.
      - intros D. assert (D2 : (3 | a * e)). { apply (Z.divide_add_cancel_r _ (3 * (z * a * a * 3 ^ m))); [apply Z.divide_factor_l|]. rewrite Z.add_comm, (Z.mul_comm a e). exact D. }
        apply (Gauss 3 a e D2). apply prime_rel_prime; [exact prime_3|]. intros D3. apply Z.mod_divide in D3; lia.
      - intros D. apply Z.divide_add_r; [now apply Z.divide_mul_l|apply Z.divide_factor_l]. }
    split.
    + intros D. assert (D0 : (3 ^ m | i)).
      { apply IH; [exact Hi|]. apply Z.divide_trans with (2 := D). rewrite (Z.pow_succ_r _ (m + 1)) by lia. apply Z.divide_factor_r. }
      destruct D0 as [e E]. assert (He : 0 <= e) by nia. rewrite E, Z.mul_comm in D. apply (K e He) in D.
      rewrite E. rewrite Z.pow_succ_r by lia. now apply Z.mul_divide_mono_r.
    + intros [e E]. rewrite Z.pow_succ_r in E by lia. assert (He : 0 <= e) by nia. replace i with (3 ^ m * (3 * e)) by (rewrite E; ring).
      apply K; [lia|]. apply Z.divide_factor_l.
Qed.
Lemma two_parity : forall j, 0 <= j -> 2 ^ j mod 3 = if Z.even j then 1 else 2.
Proof.
  refine (natlike_ind _ _ _); [reflexivity|]. intros j Hj IH. rewrite Z.pow_succ_r, Z.mul_mod, IH by lia.
  rewrite Z.even_succ, <- Z.negb_even. now destruct (Z.even j).
Qed.
Theorem order_two : forall m, 0 <= m -> is_order (3 ^ (m + 1)) 2 (2 * 3 ^ m).
Proof.
  intros m Hm. assert (P : 0 < 3 ^ m) by (apply Z.pow_pos_nonneg; lia). assert (P1 : 3 ^ (m + 1) = 3 * 3 ^ m) by (rewrite Z.add_1_r, Z.pow_succ_r; lia).
  assert (K : forall i, 0 <= i -> (2 ^ (2 * i)) mod 3 ^ (m + 1) = 1 mod 3 ^ (m + 1) <-> (3 ^ m | i)).
  { intros i Hi. rewrite <- (four_one m Hm i Hi). rewrite Z.pow_mul_r by lia. change (2 ^ 2) with 4. split.
    - intros E. apply Z.mod_divide; [lia|]. rewrite Zminus_mod, E, Z.sub_diag. apply Z.mod_0_l. lia.
    - intros [z E]. replace (4 ^ i) with (1 + z * 3 ^ (m + 1)) by lia. now rewrite Z.mod_add by lia. }
  split; [lia|]. split; [apply K; [lia|apply Z.divide_refl]|].
  intros j Hj E. destruct (Z.Even_or_Odd j) as [[i Ei]|[i Ei]].
  - subst j. apply K in E; [|clear -Hj; lia]. apply Z.divide_pos_le in E; lia.
  - assert (T : 2 ^ j mod 3 = 1).
    { assert (M : forall x, (x mod 3 ^ (m + 1)) mod 3 = x mod 3).
      { intros x. rewrite P1. rewrite Z.rem_mul_r by lia. rewrite (Z.mul_comm 3 (_ mod 3 ^ m)). rewrite Z.mod_add by lia. now apply Z.mod_mod. }
      rewrite <- M, E, M. reflexivity. }
    rewrite two_parity in T by lia. replace (Z.even j) with false in T; [discriminate|]. subst j. rewrite Z.even_add, Z.even_mul. reflexivity.
Qed.

(** ** a uniform number below M, shifted and taken modulo P *)
Lemma count_app : forall f a b, count f (a + b) = (count f a + count (fun k => f (Z.of_nat a + k)%Z) b)%nat.
Proof.
  intros f a. induction b as [|b IH].
  - rewrite Nat.add_0_r. unfold count at 3. cbn. lia.
  - rewrite Nat.add_succ_r, !count_S, IH, Nat2Z.inj_add. lia.
Qed.
Lemma count_all : forall f M, (forall k, 0 <= k < Z.of_nat M -> f k = true) -> count f M = M.
Proof. induction M as [|M IH]; intros H; [reflexivity|]. rewrite count_S, IH by (intros; apply H; lia). rewrite H by lia. lia. Qed.
Lemma count_none : forall f M, (forall k, 0 <= k < Z.of_nat M -> f k = false) -> count f M = 0%nat.
Proof. induction M as [|M IH]; intros H; [reflexivity|]. rewrite count_S, IH by (intros; apply H; lia). rewrite H by lia. lia. Qed.
Lemma count_ext_lt : forall f g M, (forall k, 0 <= k < Z.of_nat M -> f k = g k) -> count f M = count g M.
Proof. induction M as [|M IH]; intros H; [reflexivity|]. rewrite !count_S, IH by (intros; apply H; lia). rewrite H by lia. lia. Qed.

(** the numbers of [0, n) whose shift by s falls below t modulo P, for s = 0 and s = t *)
Definition below (P t s : Z) (k : Z) : bool := (s + k) mod P <? t.
Lemma below_period : forall P t s q, 0 < P -> (0 <= s)%Z -> count (below P t s) (Z.to_nat P * q) = (q * count (below P t s) (Z.to_nat P))%nat.
Proof.
  intros P t s q HP Hs. induction q as [|q IH]; [now rewrite Nat.mul_0_r|].
  rewrite Nat.mul_succ_r, Nat.add_comm, count_app, (Nat.mul_succ_l q). rewrite <- IH, Nat.add_comm. f_equal.
  apply count_ext. intros k _. unfold below. f_equal. rewrite Z2Nat.id by lia. replace (s + (P + k)) with (s + k + 1 * P) by ring. now rewrite Z.mod_add by lia.
Qed.
Lemma below_full : forall P t s, 0 < P -> 0 <= t <= P -> 0 <= s < P -> Z.of_nat (count (below P t s) (Z.to_nat P)) = t.
Proof.
  intros P t s HP Ht Hs.
  assert (B : forall a n, 0 <= a -> a + Z.of_nat n <= P -> Z.of_nat (count (fun k => a + k <? t) n) = Z.max 0 (Z.min (Z.of_nat n) (t - a))).
  { intros a n Ha. induction n as [|n IH]; intros Hn; [cbn; lia|]. rewrite count_S, Nat2Z.inj_add, IH by lia.
    destruct (Z.ltb_spec (a + Z.of_nat n) t); cbn [Z.of_nat]; lia. }
  replace (Z.to_nat P) with (Z.to_nat (P - s) + Z.to_nat s)%nat by lia. rewrite count_app, Nat2Z.inj_add.
  rewrite (count_ext_lt _ (fun k => s + k <? t) (Z.to_nat (P - s))) by (intros k Hk; unfold below; rewrite Z.mod_small by lia; reflexivity).
  rewrite (count_ext_lt _ (fun k => 0 + k <? t) (Z.to_nat s)).
  2:{ intros k Hk. unfold below. rewrite Z2Nat.id by lia. replace (s + (P - s + k)) with (k + 1 * P) by ring. rewrite Z.mod_add, Z.mod_small by lia. reflexivity. }
  rewrite !B by lia. lia.
Qed.
Lemma below_split : forall P t s M, 0 < P -> 0 <= t <= P -> 0 <= s < P -> 0 <= M ->
  Z.of_nat (count (below P t s) (Z.to_nat M)) = M / P * t + Z.of_nat (count (below P t s) (Z.to_nat (M mod P))).
Proof.
  intros P t s M HP Ht Hs HM. pose proof (Z.div_mod M P ltac:(lia)) as D. pose proof (Z.mod_pos_bound M P HP). pose proof (Z.div_pos M P HM HP).
  replace (Z.to_nat M) with (Z.to_nat P * Z.to_nat (M / P) + Z.to_nat (M mod P))%nat by nia.
  rewrite count_app, Nat2Z.inj_add. f_equal.
  - rewrite below_period, Nat2Z.inj_mul, below_full by lia. lia.
  - f_equal. apply count_ext. intros k _. unfold below. f_equal.
    replace (s + (Z.of_nat (Z.to_nat P * Z.to_nat (M / P)) + k)) with (s + k + (M / P) * P) by nia. now rewrite Z.mod_add by lia.
Qed.
Theorem shift_distance : forall P M, 0 < P -> 0 <= M -> let t := M mod P in
  Z.of_nat (count (below P t 0) (Z.to_nat M)) - Z.of_nat (count (below P t t) (Z.to_nat M)) = Z.min t (P - t).
Proof.
  intros P M HP HM t. pose proof (Z.mod_pos_bound M P HP) as B. fold t in B. rewrite (below_split P t 0 M), (below_split P t t M) by lia. fold t.
  rewrite (count_all (below P t 0)) by (intros k Hk; unfold below; rewrite Z.mod_small by lia; apply Z.ltb_lt; lia).
  destruct (Z_le_gt_dec (2 * t) P) as [L|L].
  - rewrite (count_none (below P t t)) by (intros k Hk; unfold below; rewrite Z.mod_small by lia; apply Z.ltb_ge; lia). lia.
  - replace (Z.to_nat t) with (Z.to_nat (P - t) + Z.to_nat (2 * t - P))%nat at 2 by lia. rewrite count_app.
    rewrite (count_none (below P t t)) by (intros k Hk; unfold below; rewrite Z.mod_small by lia; apply Z.ltb_ge; lia).
    rewrite count_all. 2:{ intros k Hk. unfold below. rewrite Z2Nat.id by lia. replace (t + (P - t + k)) with (k + 1 * P) by ring. rewrite Z.mod_add, Z.mod_small by lia. apply Z.ltb_lt. lia. }
    lia.
Qed.
