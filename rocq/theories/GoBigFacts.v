(** Facts about the math/big semantics of GoBig.v. *)
From Coq Require Import ZArith Znumtheory Bool Lia String Ascii List Setoid Morphisms.
From Coq Require Import DecimalString DecimalZ DecimalFacts DecimalPos.
From Verif Require Import GoBig.
Import ListNotations.
Open Scope Z_scope.

(** ** modular exponentiation *)
Lemma mul_mod_idem_r : forall a b m, (a * (b mod m)) mod m = (a * b) mod m.
Proof.
  intros. destruct (Z.eq_dec m 0) as [->|H]; [now rewrite !Zmod_0_r|].
  now rewrite Z.mul_mod_idemp_r.
Qed.
Lemma mul_mod_idem_l : forall a b m, ((a mod m) * b) mod m = (a * b) mod m.
Proof. intros. rewrite Z.mul_comm, mul_mod_idem_r, Z.mul_comm; reflexivity. Qed.

Lemma pow_mod_idem : forall a k m, 0 <= k -> ((a mod m) ^ k) mod m = (a ^ k) mod m.
Proof.
  intros a k m Hk. revert k Hk. apply natlike_ind.
  - now rewrite !Z.pow_0_r.
  - intros k Hk IH. rewrite !Z.pow_succ_r by lia.
    rewrite <- (mul_mod_idem_r (a mod m)), IH, mul_mod_idem_r, mul_mod_idem_l. reflexivity.
Qed.

Lemma powmod_pos_spec : forall y x m, powmod_pos x y m = (x ^ Zpos y) mod m.
Proof.
  induction y; intros x m; cbn [powmod_pos].
  - rewrite IHy, Pos2Z.inj_xI, mul_mod_idem_r, <- mul_mod_idem_r, pow_mod_idem by lia.
    rewrite mul_mod_idem_r. f_equal. rewrite Z.pow_add_r, Z.pow_1_r, Z.pow_mul_r by lia.
    rewrite Z.pow_2_r. ring.
  - rewrite IHy, Pos2Z.inj_xO, pow_mod_idem by lia. f_equal.
    rewrite Z.pow_mul_r, Z.pow_2_r by lia. reflexivity.
  - now rewrite Z.pow_1_r.
Qed.

Lemma powmod_spec : forall x y m, 0 <= y -> powmod x y m = (x ^ y) mod m.
Proof.
  intros x y m H. destruct y; cbn [powmod].
  - now rewrite Z.pow_0_r.
  - apply powmod_pos_spec.
  - lia.
Qed.

Lemma big_exp_nonneg : forall x y m, 0 < m -> 0 <= y -> big_exp x y m = Some ((x ^ y) mod m).
Proof.
  intros x y m Hm Hy. unfold big_exp.
  destruct (Z.eqb_spec m 0); [lia|]. destruct (Z.leb_spec 0 y); [|lia].
  rewrite powmod_spec by lia. now rewrite Z.abs_eq by lia.
Qed.

Lemma exp_recv_nonneg : forall z x y m, 0 < m -> 0 <= y -> exp_recv z x y m = (x ^ y) mod m.
Proof. intros. unfold exp_recv. now rewrite big_exp_nonneg. Qed.

Lemma pow_mod_mul : forall b e1 e2 m, 0 <= e1 -> 0 <= e2 ->
  ((b ^ e1 mod m) ^ e2) mod m = b ^ (e1 * e2) mod m.
Proof. intros. rewrite pow_mod_idem, Z.pow_mul_r by lia. reflexivity. Qed.

(** ** extended gcd and inverses *)
Lemma egcd_bezout : forall f a b g x y, egcd f a b = (g, x, y) -> a * x + b * y = g.
Proof.
  induction f; intros a b g x y; cbn [egcd].
  - intros [= <- <- <-]. lia.
  - destruct (Z.eqb_spec b 0) as [->|Hb].
    + intros [= <- <- <-]. lia.
    + destruct (egcd f b (a mod b)) as [[g' x'] y'] eqn:E. intros [= <- <- <-].
      apply IHf in E. pose proof (Z.div_mod a b Hb). nia.
Qed.

Lemma egcd_gcd : forall f a b g x y, 0 <= b <= a -> a * b < 2 ^ Z.of_nat f ->
  egcd f a b = (g, x, y) -> g = Z.gcd a b.
Proof.
  induction f; intros a b g x y Hab Hf; cbn [egcd].
  - change (2 ^ Z.of_nat 0) with 1 in Hf. assert (b = 0) by nia. subst.
    intros [= <- <- <-]. now rewrite Z.gcd_0_r, Z.abs_eq by lia.
  - destruct (Z.eqb_spec b 0) as [->|Hb].
    + intros [= <- <- <-]. now rewrite Z.gcd_0_r, Z.abs_eq by lia.
    + destruct (egcd f b (a mod b)) as [[g' x'] y'] eqn:E. intros [= <- <- <-].
      pose proof (Z.mod_pos_bound a b ltac:(lia)) as Hr.
      apply IHf in E; [|lia|].
      * rewrite E, Z.gcd_comm, Z.gcd_mod, Z.gcd_comm by lia. reflexivity.
      * rewrite Nat2Z.inj_succ, Z.pow_succ_r in Hf by lia.
        pose proof (Z.div_mod a b Hb). assert (1 <= a / b) by (apply Z.div_le_lower_bound; lia).
        nia.
Qed.

Lemma bit_len_bound : forall x, Z.abs x < 2 ^ bit_len x.
Proof.
  intros x. unfold bit_len. destruct (Z.eqb_spec x 0) as [->|Hx]; [reflexivity|].
  pose proof (Z.log2_spec (Z.abs x) ltac:(lia)). replace (Z.log2 (Z.abs x) + 1) with (Z.succ (Z.log2 (Z.abs x))) by lia. lia.
Qed.
Lemma bit_len_nonneg : forall x, 0 <= bit_len x.
Proof. intros x. unfold bit_len. destruct (Z.eqb_spec x 0); [lia|]. pose proof (Z.log2_nonneg (Z.abs x)); lia. Qed.

Lemma bit_len_le_iff : forall x k, 0 <= k -> (bit_len x <= k <-> Z.abs x < 2 ^ k).
Proof.
  intros x k Hk. unfold bit_len. destruct (Z.eqb_spec x 0) as [->|Hx].
  - change (Z.abs 0) with 0. pose proof (Z.pow_pos_nonneg 2 k ltac:(lia) Hk). lia.
  - rewrite (Z.log2_lt_pow2 (Z.abs x) k) by lia. lia.
Qed.

Lemma egcd_main : forall a m g x y, 0 < m -> egcd (egcd_fuel m) (a mod m) m = (g, x, y) ->
  g = Z.gcd a m.
Proof.
  intros a m g x y Hm. unfold egcd_fuel.
  pose proof (bit_len_nonneg m). pose proof (bit_len_bound m) as Hb.
  replace (Z.to_nat (2 * bit_len m + 2)) with (S (Z.to_nat (2 * bit_len m + 1))) by lia.
  cbn [egcd]. destruct (Z.eqb_spec m 0); [lia|].
  assert (Ha : 0 <= a mod m < m) by (apply Z.mod_pos_bound; lia).
  rewrite (Z.mod_small (a mod m) m) by lia.
  destruct (egcd _ m (a mod m)) as [[g' x'] y'] eqn:E. intros [= <- <- <-].
  apply egcd_gcd in E; [| lia |].
  - rewrite E, (Z.gcd_comm m (a mod m)), Z.gcd_mod, Z.gcd_comm by lia. reflexivity.
  - rewrite Z2Nat.id by lia. replace (2 * bit_len m + 1) with (bit_len m + bit_len m + 1) by lia.
    rewrite !Z.pow_add_r by lia. rewrite Z.abs_eq in Hb by lia.
    assert (m * (a mod m) < 2 ^ bit_len m * 2 ^ bit_len m) by nia. nia.
Qed.

Definition coprime (a m : Z) : Prop := Z.gcd a m = 1.

Lemma mod_inverse_some : forall g n, 0 < n -> coprime g n ->
  exists v, mod_inverse g n = Some v /\ 0 <= v < n /\ (g * v) mod n = 1 mod n.
Proof.
  intros g n Hn Hc. unfold mod_inverse. rewrite Z.abs_eq by lia.
  destruct (Z.eqb_spec n 0); [lia|].
  destruct (egcd (egcd_fuel n) (g mod n) n) as [[d x] y] eqn:E.
  pose proof (egcd_main _ _ _ _ _ Hn E) as Hd. rewrite Hc in Hd. subst d.
  apply egcd_bezout in E. cbn. exists (x mod n). split; [reflexivity|].
  split; [apply Z.mod_pos_bound; lia|].
  rewrite mul_mod_idem_r, <- mul_mod_idem_l.
  replace (g mod n * x) with (1 + (-y) * n) by lia. now rewrite Z.mod_add by lia.
Qed.

Lemma mod_inverse_none : forall g n, 0 < n -> ~ coprime g n -> mod_inverse g n = None.
Proof.
  intros g n Hn Hc. unfold mod_inverse. rewrite Z.abs_eq by lia.
  destruct (Z.eqb_spec n 0); [lia|].
  destruct (egcd (egcd_fuel n) (g mod n) n) as [[d x] y] eqn:E.
  pose proof (egcd_main _ _ _ _ _ Hn E) as Hd.
  destruct (Z.eqb_spec d 1); [|reflexivity]. exfalso. apply Hc. red. lia.
Qed.

Lemma coprime_dec : forall a m, {coprime a m} + {~ coprime a m}.
Proof. intros. apply Z.eq_dec. Qed.

Lemma coprime_mod : forall a m, 0 < m -> coprime a m -> coprime (a mod m) m.
Proof. unfold coprime. intros. now rewrite Z.gcd_mod, Z.gcd_comm by lia. Qed.
Lemma coprime_mod_inv : forall a m, 0 < m -> coprime (a mod m) m -> coprime a m.
Proof. unfold coprime. intros a m Hm H. now rewrite Z.gcd_mod, Z.gcd_comm in H by lia. Qed.

Lemma coprime_mul : forall a b m, coprime a m -> coprime b m -> coprime (a * b) m.
Proof.
  unfold coprime. intros a b m Ha Hb. apply Zgcd_1_rel_prime.
  apply rel_prime_sym, rel_prime_mult; apply rel_prime_sym; now apply Zgcd_1_rel_prime.
Qed.
Lemma coprime_1 : forall m, coprime 1 m.
Proof. intros. red. now rewrite Z.gcd_1_l. Qed.

Lemma coprime_pow : forall a k m, 0 <= k -> coprime a m -> coprime (a ^ k) m.
Proof.
  intros a k m Hk Ha. revert k Hk. apply natlike_ind.
  - apply coprime_1.
  - intros k Hk IH. rewrite Z.pow_succ_r by lia. now apply coprime_mul.
Qed.

Lemma coprime_inverse : forall a v m, 0 < m -> (a * v) mod m = 1 mod m -> coprime v m.
Proof.
  intros a v m Hm H. red. apply Zgcd_1_rel_prime.
  apply bezout_rel_prime.
  apply Bezout_intro with (u := a) (v := - ((a * v) / m) + 1 / m).
  pose proof (Z.div_mod (a * v) m ltac:(lia)). pose proof (Z.div_mod 1 m ltac:(lia)). nia.
Qed.

(** cancellation of a unit *)
Lemma unit_cancel : forall u a b m, 0 < m -> coprime u m ->
  (a * u) mod m = (b * u) mod m -> a mod m = b mod m.
Proof.
  intros u a b m Hm Hu H.
  destruct (mod_inverse_some u m Hm Hu) as (v & _ & _ & Hv).
  assert (E : forall t, (t * u * v) mod m = t mod m).
  { intros t. rewrite <- Z.mul_assoc, <- mul_mod_idem_r, Hv, mul_mod_idem_r. f_equal. lia. }
  rewrite <- (E a), <- (E b). rewrite <- mul_mod_idem_l, H, mul_mod_idem_l. reflexivity.
Qed.

(** ** integer powers of a unit *)
Definition up (m g k : Z) : Z := match big_exp g k m with Some v => v | None => 0 end.

(** [v] represents g^k: multiplying by enough positive powers of g gives a positive power *)
Definition rep_pow (m g k v : Z) : Prop :=
  forall j, 0 <= j -> 0 <= k + j -> (v * g ^ j) mod m = (g ^ (k + j)) mod m.

Lemma rep_pow_unique : forall m g k v w, 0 < m -> coprime g m ->
  rep_pow m g k v -> rep_pow m g k w -> v mod m = w mod m.
Proof.
  intros m g k v w Hm Hg Hv Hw.
  apply (unit_cancel (g ^ Z.abs k)); [assumption|apply coprime_pow; [lia|assumption]|].
  rewrite Hv, Hw by lia. reflexivity.
Qed.

Lemma rep_pow_nonneg : forall m g k, 0 <= k -> rep_pow m g k (g ^ k).
Proof. intros m g k Hk j Hj Hkj. now rewrite Z.pow_add_r by lia. Qed.

Lemma rep_pow_inv : forall m g v k, 0 < m -> (g * v) mod m = 1 mod m -> k <= 0 ->
  rep_pow m g k (v ^ (- k)).
Proof.
  intros m g v k Hm Hv Hk j Hj Hkj.
  replace j with ((k + j) + (- k)) at 1 by lia. rewrite Z.pow_add_r by lia.
  replace (v ^ (- k) * (g ^ (k + j) * g ^ (- k))) with (g ^ (k + j) * ((g * v) ^ (- k)))
    by (rewrite Z.pow_mul_l; ring).
  rewrite <- mul_mod_idem_r, <- pow_mod_idem, Hv, pow_mod_idem, Z.pow_1_l, mul_mod_idem_r by lia.
  f_equal. lia.
Qed.

Lemma rep_pow_mod : forall m g k v, rep_pow m g k v <-> rep_pow m g k (v mod m).
Proof.
  intros m g k v. unfold rep_pow. split; intros H j Hj Hk; specialize (H j Hj Hk);
  [rewrite mul_mod_idem_l|rewrite mul_mod_idem_l in H]; assumption.
Qed.

Lemma big_exp_unit : forall m g k, 0 < m -> 0 <= g -> coprime g m ->
  exists v, big_exp g k m = Some v /\ 0 <= v < m /\ rep_pow m g k v.
Proof.
  intros m g k Hm Hg Hc. destruct (Z_le_gt_dec 0 k) as [Hk|Hk].
  - rewrite big_exp_nonneg by lia. eexists; split; [reflexivity|].
    split; [apply Z.mod_pos_bound; lia|]. apply -> rep_pow_mod. now apply rep_pow_nonneg.
  - unfold big_exp. destruct (Z.eqb_spec m 0); [lia|]. destruct (Z.leb_spec 0 k); [lia|].
    destruct (mod_inverse_some g m Hm Hc) as (v & -> & Hv & Hgv).
    destruct (Z.ltb_spec g 0); [lia|]. cbn [andb].
    rewrite powmod_spec by lia. rewrite Z.abs_eq by lia.
    eexists; split; [reflexivity|]. split; [apply Z.mod_pos_bound; lia|].
    apply -> rep_pow_mod. now apply rep_pow_inv; try lia.
Qed.

Lemma big_exp_up : forall m g k, 0 < m -> 0 <= g -> coprime g m ->
  big_exp g k m = Some (up m g k).
Proof. intros. unfold up. destruct (big_exp_unit m g k) as (v & -> & _); auto. Qed.

Lemma up_range : forall m g k, 0 < m -> 0 <= g -> coprime g m -> 0 <= up m g k < m.
Proof. intros. unfold up. destruct (big_exp_unit m g k) as (v & -> & Hv & _); auto. Qed.

Lemma up_rep : forall m g k, 0 < m -> 0 <= g -> coprime g m -> rep_pow m g k (up m g k).
Proof. intros. unfold up. destruct (big_exp_unit m g k) as (v & -> & _ & Hv); auto. Qed.

Lemma up_nonneg : forall m g k, 0 < m -> 0 <= k -> up m g k = g ^ k mod m.
Proof. intros. unfold up. now rewrite big_exp_nonneg. Qed.

Lemma up_intro : forall m g k v, 0 < m -> 0 <= g -> coprime g m ->
  rep_pow m g k v -> v mod m = up m g k.
Proof.
  intros m g k v Hm Hg Hc Hv. rewrite <- (Z.mod_small (up m g k) m) by (now apply up_range).
  apply (rep_pow_unique m g k); auto. now apply up_rep.
Qed.


Lemma up_unit : forall m g k, 0 < m -> 0 <= g -> coprime g m -> coprime (up m g k) m.
Proof.
  intros m g k Hm Hg Hc. pose proof (up_rep m g k Hm Hg Hc (Z.abs k) ltac:(lia) ltac:(lia)) as H.
  assert (Hp : coprime (g ^ (k + Z.abs k) mod m) m) by (apply coprime_mod; [assumption|apply coprime_pow; [lia|assumption]]).
  rewrite <- H in Hp. apply coprime_mod_inv in Hp; [|assumption].
  red in Hp |- *. apply Zgcd_1_rel_prime in Hp. apply Zgcd_1_rel_prime.
  apply rel_prime_div with (1 := Hp). apply Z.divide_factor_l.
Qed.

Lemma up_add : forall m g a b, 0 < m -> 0 <= g -> coprime g m ->
  (up m g a * up m g b) mod m = up m g (a + b).
Proof.
  intros m g a b Hm Hg Hc.
  rewrite <- (Z.mod_small (up m g (a + b)) m) by (now apply up_range).
  set (j := Z.abs a). set (k := Z.abs b).
  apply (unit_cancel (g ^ (j + k))); [assumption|apply coprime_pow; [lia|assumption]|].
  rewrite up_rep by (auto; lia).
  replace (up m g a * up m g b * g ^ (j + k)) with ((up m g a * g ^ j) * (up m g b * g ^ k))
    by (rewrite Z.pow_add_r by lia; ring).
  rewrite <- mul_mod_idem_l, <- mul_mod_idem_r, !up_rep by (auto; lia).
  rewrite mul_mod_idem_l, mul_mod_idem_r, <- Z.pow_add_r by lia. f_equal. f_equal. lia.
Qed.

Lemma up_0 : forall m g, 0 < m -> up m g 0 = 1 mod m.
Proof. intros. rewrite up_nonneg by lia. reflexivity. Qed.
Lemma up_1 : forall m g, 0 < m -> up m g 1 = g mod m.
Proof. intros. rewrite up_nonneg, Z.pow_1_r by lia. reflexivity. Qed.

Lemma up_inv : forall m g a, 0 < m -> 0 <= g -> coprime g m ->
  (up m g a * up m g (- a)) mod m = 1 mod m.
Proof. intros. rewrite up_add, Z.add_opp_diag_r, up_0; auto. Qed.

Lemma up_base_mod : forall m g k, 0 < m -> 0 <= g -> coprime g m ->
  up m (g mod m) k = up m g k.
Proof.
  intros m g k Hm Hg Hc.
  pose proof (Z.mod_pos_bound g m Hm) as Hb.
  rewrite <- (Z.mod_small (up m (g mod m) k) m) by (apply up_range; try lia; now apply coprime_mod).
  apply up_intro; auto.
  intros j Hj Hkj.
  rewrite <- mul_mod_idem_r, <- pow_mod_idem, mul_mod_idem_r by lia.
  rewrite up_rep by (try lia; try apply coprime_mod; auto).
  now rewrite pow_mod_idem by lia.
Qed.

Lemma up_mul : forall m g a b, 0 < m -> 0 <= g -> coprime g m ->
  up m (up m g a) b = up m g (a * b).
Proof.
  intros m g a b Hm Hg Hc.
  pose proof (up_range m g a Hm Hg Hc) as Hr. pose proof (up_unit m g a Hm Hg Hc) as Hu.
  assert (Hpos : forall k, 0 <= k -> up m (up m g a) k = up m g (a * k)).
  { apply natlike_ind.
    - now rewrite !Z.mul_0_r, !up_0 by lia.
    - intros k Hk IH. replace (Z.succ k) with (k + 1) by lia.
      rewrite <- up_add, IH, up_1, mul_mod_idem_r, up_add by (auto; lia). f_equal. lia. }
  destruct (Z_le_gt_dec 0 b) as [Hb|Hb]; [now apply Hpos|].
  rewrite <- (Z.mod_small (up m (up m g a) b) m) by (apply up_range; auto; lia).
  rewrite <- (Z.mod_small (up m g (a * b)) m) by (apply up_range; auto; lia).
  apply (unit_cancel (up m (up m g a) (- b))); [assumption|apply up_unit; auto; lia|].
  rewrite up_inv by (auto; lia). rewrite Hpos by lia.
  rewrite up_add by auto. replace (a * b + a * - b) with 0 by lia. now rewrite up_0.
Qed.

Lemma up_mul_base : forall m g h k, 0 < m -> 0 <= g -> 0 <= h -> coprime g m -> coprime h m ->
  up m ((g * h) mod m) k = (up m g k * up m h k) mod m.
Proof.
  intros m g h k Hm Hg Hh Hcg Hch.
  assert (Hgh : coprime (g * h) m) by now apply coprime_mul.
  rewrite up_base_mod by (auto; nia). symmetry. apply up_intro; auto; [nia|].
  intros j Hj Hkj. rewrite Z.pow_mul_l.
  replace (up m g k * up m h k * (g ^ j * h ^ j)) with ((up m g k * g ^ j) * (up m h k * h ^ j)) by ring.
  rewrite <- mul_mod_idem_l, <- mul_mod_idem_r, !up_rep by (auto; lia).
  now rewrite mul_mod_idem_l, mul_mod_idem_r, Z.pow_mul_l.
Qed.

Lemma mod_inverse_up : forall m g, 1 < m -> 0 <= g -> coprime g m ->
  mod_inverse g m = Some (up m g (-1)).
Proof.
  intros m g Hm Hg Hc. destruct (mod_inverse_some g m ltac:(lia) Hc) as (v & -> & Hv & Hgv).
  f_equal. rewrite <- (Z.mod_small v m) by lia. apply up_intro; auto; [lia|].
  replace v with (v ^ (- (-1))) by (change (- (-1)) with 1; apply Z.pow_1_r).
  apply rep_pow_inv; lia.
Qed.

(** outside units: a negative exponent gives nil *)
Lemma big_exp_nonunit : forall m g k, 0 < m -> ~ coprime g m -> k < 0 -> big_exp g k m = None.
Proof.
  intros m g k Hm Hc Hk. unfold big_exp. destruct (Z.eqb_spec m 0); [lia|].
  destruct (Z.leb_spec 0 k); [lia|]. now rewrite mod_inverse_none.
Qed.
