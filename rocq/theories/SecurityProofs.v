(** Number theory behind properties C68-C71: Bezout combination of a false witness (Shamir's trick),
    unique factorisation, and the distribution of g^(r*P) for r below a bound. *)
From Coq Require Import ZArith Bool Lia Znumtheory List Permutation.
From Verif Require Import GoBig GoBigFacts Spec AccFacts.
Import ListNotations.
Open Scope Z_scope.

(** ** roots from false witnesses *)

(** the coefficients of gcd(P, x) = P*a + x*b *)
Definition bezout (P x : Z) : Z * Z :=
  let '(_, a, b) := egcd (egcd_fuel x) (P mod x) x in (a, b - (P / x) * a).

(** w^a * g^b modulo N with those coefficients; a and b may be negative *)
Definition extracted_root (N g P x w : Z) : Z :=
  let (a, b) := bezout P x in (exp_recv 0 w a N * exp_recv 0 g b N) mod N.

Lemma bezout_spec : forall P x a b, 0 < x -> bezout P x = (a, b) -> P * a + x * b = Z.gcd x P.
Proof.
  intros P x a b Hx. unfold bezout. destruct (egcd _ _ _) as [[d a'] b'] eqn:E. intros [= <- <-].
  pose proof (egcd_bezout _ _ _ _ _ _ E) as B. apply egcd_main in E; [|assumption].
  rewrite Z.gcd_comm, <- E, <- B. rewrite Z.mod_eq by lia. ring.
Qed.

Lemma unit_of_power : forall N w x c, 0 < N -> 0 < x -> coprime c N -> w ^ x mod N = c mod N -> coprime w N.
Proof.
  intros N w x c HN Hx Hc H. apply coprime_mod in Hc; [|assumption]. rewrite <- H in Hc. apply coprime_mod_inv in Hc; [|assumption].
  replace x with (Z.succ (x - 1)) in Hc by lia. rewrite Z.pow_succ_r in Hc by lia.
  red in Hc |- *. apply Zgcd_1_rel_prime in Hc. apply Zgcd_1_rel_prime.
  apply rel_prime_div with (1 := Hc). apply Z.divide_factor_l.
Qed.

Lemma root_spec : forall N g P x w, 0 < N -> 0 <= g -> coprime g N -> 0 <= w -> 0 <= P -> 0 < x ->
  w ^ x mod N = g ^ P mod N ->
  0 <= extracted_root N g P x w < N /\ extracted_root N g P x w ^ x mod N = g ^ Z.gcd x P mod N.
Proof.
  intros N g P x w HN Hg Hc Hw HP Hx H.
  assert (Hcw : coprime w N) by (apply (unit_of_power N w x (g ^ P)); auto; now apply coprime_pow).
  unfold extracted_root. destruct (bezout P x) as [a b] eqn:E. apply bezout_spec in E; [|assumption].
  split; [apply Z.mod_pos_bound; lia|]. rewrite pow_mod_idem by lia.
  change (exp_recv 0 w a N) with (up N w a). change (exp_recv 0 g b N) with (up N g b).
  pose proof (up_range N w a HN Hw Hcw). pose proof (up_range N g b HN Hg Hc).
  rewrite Z.pow_mul_l, <- mul_mod_idem_l, <- mul_mod_idem_r.
  rewrite <- !up_nonneg by (assumption || lia). rewrite !up_mul by assumption.
  rewrite (Z.mul_comm a x), <- up_mul by assumption. rewrite (up_nonneg N w x) by lia. rewrite H.
  rewrite <- (up_nonneg N g P) by lia. rewrite up_mul, up_add by assumption.
  rewrite (Z.mul_comm b x), E. apply up_nonneg; [lia|apply Z.gcd_nonneg].
Qed.

(** a prime that divides a product of primes is one of them *)
Lemma prime_in_product : forall p l, prime p -> Forall prime l -> (p | product l) -> In p l.
Proof.
  intros p l Hp. induction l as [|q l IH]; cbn [product fold_right]; intros Hl D.
  - exfalso. pose proof (prime_ge_2 p Hp). apply Z.divide_1_r_nonneg in D; lia.
  - inversion_clear Hl as [|? ? Hq Hl']. apply prime_mult in D; [|assumption]. destruct D as [D|D].
    + left. symmetry. now apply (prime_div_prime p q).
    + right. now apply IH.
Qed.

Lemma prime_not_in_coprime : forall p l, prime p -> Forall prime l -> ~ In p l -> Z.gcd p (product l) = 1.
Proof.
  intros p l Hp Hl Hn. apply Zgcd_1_rel_prime. apply prime_rel_prime; [assumption|].
  intros D. apply Hn. now apply prime_in_product.
Qed.

(** unique factorisation *)
Lemma prime_factors_unique : forall l1 l2, Forall prime l1 -> Forall prime l2 -> product l1 = product l2 -> Permutation l1 l2.
Proof.
  induction l1 as [|p l1 IH]; intros l2 H1 H2 E.
  - destruct l2 as [|q l2]; [constructor|]. exfalso. inversion_clear H2 as [|? ? Hq _]. cbn [product fold_right] in E.
    pose proof (prime_ge_2 q Hq). assert (D : (q | 1)) by (rewrite E; apply Z.divide_factor_l).
    apply Z.divide_1_r_nonneg in D; lia.
  - inversion_clear H1 as [|? ? Hp H1']. pose proof (prime_ge_2 p Hp).
    assert (I : In p l2).
    { apply prime_in_product; auto. rewrite <- E. cbn [product fold_right]. apply Z.divide_factor_l. }
    apply in_split in I. destruct I as (a & b & ->).
    apply Permutation_cons_app. apply IH; auto.
    + rewrite Forall_app in *. destruct H2 as [Ha Hb]. inversion_clear Hb. auto.
    + rewrite product_app in *. cbn [product fold_right] in E.
      change (fold_right Z.mul 1 l1) with (product l1) in E. change (fold_right Z.mul 1 b) with (product b) in E. nia.
Qed.

(** equal powers: a multiple of the order *)
Lemma equal_powers : forall N g a b, 0 < N -> coprime g N -> 0 <= a <= b -> g ^ a mod N = g ^ b mod N -> g ^ (b - a) mod N = 1 mod N.
Proof.
  intros N g a b HN Hc Hab H. apply (unit_cancel (g ^ a)); [assumption|apply coprime_pow; [lia|assumption]|].
  rewrite <- Z.pow_add_r by lia. rewrite Z.mul_1_l. replace (b - a + a) with b by lia. now symmetry.
Qed.

(** ** counting *)
Definition count (f : Z -> bool) (M : nat) : nat := length (filter f (map Z.of_nat (seq 0 M))).

Lemma count_S : forall f M, count f (S M) = (count f M + (if f (Z.of_nat M) then 1 else 0))%nat.
Proof.
  intros f M. unfold count. rewrite seq_S, map_app, filter_app, app_length. cbn [Nat.add map filter].
  destruct (f (Z.of_nat M)); reflexivity.
Qed.

Lemma count_ext : forall f g M, (forall r, 0 <= r -> f r = g r) -> count f M = count g M.
Proof. intros f g M H. induction M as [|M IH]; [reflexivity|]. rewrite !count_S, IH, H by lia. reflexivity. Qed.

Lemma count_witness : forall f M, count f M <> 0%nat -> exists r, 0 <= r < Z.of_nat M /\ f r = true.
Proof.
  intros f M. induction M as [|M IH]; [intros H; exfalso; now apply H|]. rewrite count_S. destruct (f (Z.of_nat M)) eqn:E.
  - intros _. exists (Z.of_nat M). split; [lia|exact E].
  - intros H. destruct IH as (r & Hr & E'); [lia|]. exists r. split; [lia|exact E'].
Qed.

Lemma div_succ : forall A k, 0 < k -> (A + 1) / k = A / k + (if (A + 1) mod k =? 0 then 1 else 0).
Proof.
  intros A k Hk. pose proof (Z.div_mod A k ltac:(lia)) as D. pose proof (Z.mod_pos_bound A k Hk) as B.
  destruct (Z.eq_dec (A mod k) (k - 1)) as [E|E].
  - assert (Q : A + 1 = k * (A / k + 1)) by lia. rewrite Q at 2.
    rewrite (Z.mul_comm k (A / k + 1)), Z.mod_mul by lia. cbn [Z.eqb].
    rewrite Q, (Z.mul_comm k), Z.div_mul by lia. reflexivity.
  - assert (Q : (A + 1) / k = A / k) by (symmetry; apply (Z.div_unique _ _ _ (A mod k + 1)); lia).
    assert (R : (A + 1) mod k = A mod k + 1) by (symmetry; apply (Z.mod_unique _ _ (A / k)); lia).
    rewrite R, Q. destruct (Z.eqb_spec (A mod k + 1) 0); lia.
Qed.

(** how many numbers below M are t modulo k *)
Lemma count_residue : forall k t M, 0 < k -> 0 <= t < k ->
  Z.of_nat (count (fun r => r mod k =? t) M) = (Z.of_nat M + k - 1 - t) / k.
Proof.
  intros k t M Hk Ht. induction M as [|M IH].
  - cbn. symmetry. apply Z.div_small. lia.
  - rewrite count_S, Nat2Z.inj_add, IH. rewrite Nat2Z.inj_succ.
    replace (Z.succ (Z.of_nat M) + k - 1 - t) with (Z.of_nat M + k - 1 - t + 1) by lia.
    rewrite (div_succ (Z.of_nat M + k - 1 - t)) by lia. f_equal.
    assert (E : (Z.of_nat M + k - 1 - t + 1) mod k = (Z.of_nat M - t) mod k).
    { replace (Z.of_nat M + k - 1 - t + 1) with (Z.of_nat M - t + 1 * k) by lia. now rewrite Z.mod_add by lia. }
    rewrite E. destruct (Z.eqb_spec (Z.of_nat M mod k) t) as [F|F]; destruct (Z.eqb_spec ((Z.of_nat M - t) mod k) 0) as [G|G]; try reflexivity.
    + exfalso. apply G. rewrite Zminus_mod, F, (Z.mod_small t k), Z.sub_diag by lia. apply Z.mod_0_l. lia.
    + exfalso. apply F. apply Z.mod_divide in G; [|lia]. destruct G as [c G].
      replace (Z.of_nat M) with (t + c * k) by lia. rewrite Z.mod_add by lia. now apply Z.mod_small.
Qed.

Lemma count_residue_bounds : forall k t M, 0 < k -> 0 <= t < k ->
  Z.of_nat M / k <= Z.of_nat (count (fun r => r mod k =? t) M) <= Z.of_nat M / k + 1.
Proof.
  intros k t M Hk Ht. rewrite count_residue by assumption. split.
  - apply Z.div_le_mono; lia.
  - replace (Z.of_nat M / k + 1) with ((Z.of_nat M + 1 * k) / k) by (now rewrite Z.div_add by lia). apply Z.div_le_mono; lia.
Qed.

(** ** the distribution of g^(r*P) *)
Definition is_order (N g k : Z) : Prop := 0 < k /\ g ^ k mod N = 1 mod N /\ forall j, 0 < j < k -> g ^ j mod N <> 1 mod N.

Lemma order_pow : forall N g k e, 0 < N -> is_order N g k -> 0 <= e -> g ^ e mod N = g ^ (e mod k) mod N.
Proof.
  intros N g k e HN (Hk & H1 & _) He. rewrite (Z.div_mod e k) at 1 by lia.
  pose proof (Z.mod_pos_bound e k Hk). pose proof (Z.div_pos e k He Hk).
  rewrite Z.pow_add_r, Z.pow_mul_r by nia. rewrite <- mul_mod_idem_l, <- pow_mod_idem by lia.
  rewrite H1, pow_mod_idem, Z.pow_1_l by lia. rewrite mul_mod_idem_l. now rewrite Z.mul_1_l.
Qed.

Lemma order_inj : forall N g k a b, 0 < N -> coprime g N -> is_order N g k -> 0 <= a -> 0 <= b ->
  (g ^ a mod N = g ^ b mod N <-> a mod k = b mod k).
Proof.
  intros N g k a b HN Hc Ho Ha Hb. split.
  - rewrite (order_pow N g k a), (order_pow N g k b) by assumption. destruct Ho as (Hk & _ & Hmin).
    pose proof (Z.mod_pos_bound a k Hk). pose proof (Z.mod_pos_bound b k Hk). intros E.
    destruct (Z.lt_trichotomy (a mod k) (b mod k)) as [L|[L|L]]; [|exact L|]; exfalso.
    + apply (Hmin (b mod k - a mod k)); [lia|]. apply equal_powers; auto. lia.
    + apply (Hmin (a mod k - b mod k)); [lia|]. apply equal_powers; auto. lia.
  - intros E. rewrite (order_pow N g k a), (order_pow N g k b), E by assumption. reflexivity.
Qed.

Lemma mul_inj_mod : forall k P a b, 0 < k -> coprime P k -> ((a * P) mod k = (b * P) mod k <-> a mod k = b mod k).
Proof.
  intros k P a b Hk Hc. split.
  - now apply unit_cancel.
  - intros E. rewrite <- mul_mod_idem_l, E, mul_mod_idem_l. reflexivity.
Qed.

(** a value reached by some r is reached by either M/k or M/k+1 of the r below M *)
Lemma count_reached : forall N g k P v M r0, 0 < N -> coprime g N -> is_order N g k -> 0 <= P -> coprime P k ->
  0 <= r0 -> g ^ (r0 * P) mod N = v ->
  Z.of_nat M / k <= Z.of_nat (count (fun r => g ^ (r * P) mod N =? v) M) <= Z.of_nat M / k + 1.
Proof.
  intros N g k P v M r0 HN Hc Ho HP HPk Hr0 E0. pose proof Ho as (Hk & _).
  rewrite (count_ext _ (fun r => r mod k =? r0 mod k)).
  - apply count_residue_bounds; [assumption|]. now apply Z.mod_pos_bound.
  - intros r Hr. apply eq_true_iff_eq. rewrite !Z.eqb_eq. rewrite <- E0.
    rewrite (order_inj N g k) by (auto; nia). now apply mul_inj_mod.
Qed.

Lemma reached_transfer : forall N g k P1 P2 v r1, 0 < N -> coprime g N -> is_order N g k -> 0 <= P1 -> 0 <= P2 ->
  coprime P2 k -> 0 <= r1 -> g ^ (r1 * P1) mod N = v -> exists r2, 0 <= r2 /\ g ^ (r2 * P2) mod N = v.
Proof.
  intros N g k P1 P2 v r1 HN Hc Ho HP1 HP2 Hc2 Hr1 E. pose proof Ho as (Hk & _).
  destruct (mod_inverse_some P2 k Hk Hc2) as (i & _ & Hi & Hinv).
  exists (r1 * P1 * i). split; [nia|]. rewrite <- E. apply (order_inj N g k); auto; [nia|nia|].
  replace (r1 * P1 * i * P2) with (r1 * P1 * (P2 * i)) by ring.
  rewrite <- mul_mod_idem_r, Hinv, mul_mod_idem_r. now rewrite Z.mul_1_r.
Qed.

Lemma count_close : forall N g k P1 P2 v M, 0 < N -> coprime g N -> is_order N g k -> 0 <= P1 -> 0 <= P2 ->
  coprime P1 k -> coprime P2 k ->
  (count (fun r => g ^ (r * P1) mod N =? v)%Z M <= count (fun r => g ^ (r * P2) mod N =? v)%Z M + 1)%nat.
Proof.
  intros N g k P1 P2 v M HN Hc Ho HP1 HP2 Hc1 Hc2.
  destruct (Nat.eq_dec (count (fun r => g ^ (r * P1) mod N =? v) M) 0) as [Z1|Z1]; [lia|].
  destruct (count_witness _ _ Z1) as (r1 & Hr1 & E1). apply Z.eqb_eq in E1.
  destruct (reached_transfer N g k P1 P2 v r1) as (r2 & Hr2 & E2); auto; [lia|].
  pose proof (count_reached N g k P1 v M r1 HN Hc Ho HP1 Hc1 ltac:(lia) E1).
  pose proof (count_reached N g k P2 v M r2 HN Hc Ho HP2 Hc2 Hr2 E2). lia.
Qed.
