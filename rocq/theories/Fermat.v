(** Fermat's little theorem on Z, and squares modulo a product of two primes. *)
From Coq Require Import ZArith Znumtheory List Lia Permutation.
From Verif Require Import GoBigFacts.
Import ListNotations.
Open Scope Z_scope.

Definition zprod (l : list Z) : Z := fold_right Z.mul 1 l.
Definition residues (p : Z) : list Z := map Z.of_nat (seq 1 (Z.to_nat (p - 1))).

Lemma in_residues : forall p x, In x (residues p) <-> 1 <= x < p.
Proof.
  intros p x. unfold residues. rewrite in_map_iff. split.
  - intros (n & <- & Hn). apply in_seq in Hn. lia.
  - intros H. exists (Z.to_nat x). split; [lia|]. apply in_seq. lia.
Qed.
Lemma NoDup_residues : forall p, NoDup (residues p).
Proof. intros p. apply FinFun.Injective_map_NoDup; [intros a b; lia|apply seq_NoDup]. Qed.
Lemma length_residues : forall p, 1 <= p -> Z.of_nat (length (residues p)) = p - 1.
Proof. intros p H. unfold residues. rewrite map_length, seq_length. lia. Qed.

Lemma zprod_perm : forall a b, Permutation a b -> zprod a = zprod b.
Proof. induction 1; cbn [zprod fold_right] in *; fold zprod in *; try congruence; unfold zprod in *; cbn [fold_right] in *; lia. Qed.
Lemma zprod_scale : forall p a l, zprod (map (fun x => (a * x) mod p) l) mod p = (a ^ Z.of_nat (length l) * zprod l) mod p.
Proof.
  intros p a l. induction l as [|x l IH]; [reflexivity|]. cbn [map length]. unfold zprod in *. cbn [fold_right].
  rewrite mul_mod_idem_l, <- mul_mod_idem_r, IH, mul_mod_idem_r. f_equal.
  rewrite Nat2Z.inj_succ, Z.pow_succ_r by lia. ring.
Qed.
Lemma prime_not_div_prod : forall p l, prime p -> Forall (fun x => ~ (p | x)) l -> ~ (p | zprod l).
Proof.
  intros p l Hp H. induction H as [|x l Hx _ IH]; unfold zprod in *; cbn [fold_right].
  - intros D. destruct Hp as [Hp _]. apply Z.divide_1_r_nonneg in D; lia.
  - intros D. apply prime_mult in D; tauto.
Qed.

Theorem fermat : forall p a, prime p -> ~ (p | a) -> a ^ (p - 1) mod p = 1.
Proof.
  intros p a Hp Ha. assert (H1 : 1 < p) by apply Hp.
  set (R := residues p).
  assert (PR : Permutation (map (fun x => (a * x) mod p) R) R).
  { apply NoDup_Permutation_bis.
    - assert (K : forall l, NoDup l -> (forall x, In x l -> 1 <= x < p) -> NoDup (map (fun x => (a * x) mod p) l)).
      { induction l as [|x l IH]; intros ND HR; [constructor|]. inversion_clear ND. cbn [map]. constructor.
        - rewrite in_map_iff. intros (y & Ey & Hy). assert (Hx := HR x (or_introl eq_refl)). assert (Hy' := HR y (or_intror Hy)).
          assert (D : (p | a * (y - x))).
          { apply Z.mod_divide; [lia|]. rewrite Z.mul_sub_distr_l, Zminus_mod, Ey, Z.sub_diag. apply Z.mod_0_l. lia. }
          apply prime_mult in D; [|exact Hp]. destruct D as [D|[k Hk]]; [contradiction|].
          assert (k = 0) by nia. subst k. replace y with x in Hy by lia. contradiction.
        - apply IH; [assumption|]. intros y Hy. apply HR. now right. }
      apply K; [apply NoDup_residues|]. intros x Hx. now apply in_residues.
    - rewrite map_length. lia.
    - intros y Hy. apply in_map_iff in Hy. destruct Hy as (x & <- & Hx). apply in_residues in Hx. apply in_residues.
      pose proof (Z.mod_pos_bound (a * x) p ltac:(lia)) as B. assert ((a * x) mod p <> 0); [|lia]. intros E.
      apply Z.mod_divide in E; [|lia]. apply prime_mult in E; [|exact Hp]. destruct E as [E|E]; [contradiction|].
      apply Z.divide_pos_le in E; lia. }
  pose proof (zprod_scale p a R) as E. rewrite (zprod_perm _ _ PR) in E. unfold R in E at 2. rewrite length_residues in E by lia.
  assert (D : (p | (a ^ (p - 1) - 1) * zprod R)).
  { apply Z.mod_divide; [lia|]. rewrite Z.mul_sub_distr_r, Z.mul_1_l, Zminus_mod, <- E, Z.sub_diag. apply Z.mod_0_l. lia. }
  apply prime_mult in D; [|exact Hp]. destruct D as [[k D]|D].
  - replace (a ^ (p - 1)) with (1 + k * p) by lia. rewrite Z.mod_add by lia. apply Z.mod_small. lia.
  - exfalso. revert D. apply prime_not_div_prod; [exact Hp|]. apply Forall_forall. intros x Hx. apply in_residues in Hx.
    intros Dx. apply Z.divide_pos_le in Dx; lia.
Qed.

(** ** two different primes *)
Lemma primes_coprime : forall p q, prime p -> prime q -> p <> q -> Z.gcd p q = 1.
Proof.
  intros p q Hp Hq Hne. apply Zgcd_1_rel_prime. apply rel_prime_sym. apply prime_rel_prime; [exact Hq|]. intros D.
  apply (prime_div_prime q p Hq Hp) in D. congruence.
Qed.
Lemma coprime_divide_mul : forall p q d, Z.gcd p q = 1 -> (p | d) -> (q | d) -> (p * q | d).
Proof.
  intros p q d G [k ->] D. rewrite Z.mul_comm in D. apply Z.gauss in D; [|rewrite Z.gcd_comm; exact G].
  destruct D as [j ->]. exists j. ring.
Qed.
Lemma eqm_pq : forall p q a b, 0 < p -> 0 < q -> Z.gcd p q = 1 -> a mod p = b mod p -> a mod q = b mod q -> a mod (p * q) = b mod (p * q).
Proof.
  intros p q a b Hp Hq G E1 E2.
  assert (D : forall m, 0 < m -> a mod m = b mod m -> (m | a - b)).
  { intros m Hm E. apply Z.mod_divide; [lia|]. rewrite Zminus_mod, E, Z.sub_diag. apply Z.mod_0_l. lia. }
  destruct (coprime_divide_mul p q (a - b) G (D p Hp E1) (D q Hq E2)) as [k Hk].
  replace a with (b + k * (p * q)) by lia. apply Z.mod_add. nia.
Qed.
Lemma crt : forall p q a b, 0 < p -> 0 < q -> Z.gcd p q = 1 -> exists x, x mod p = a mod p /\ x mod q = b mod q.
Proof.
  intros p q a b Hp Hq G. destruct (Z.gcd_bezout p q 1 G) as (u & v & E).
  exists (a * (v * q) + b * (u * p)). split.
  - replace (v * q) with (1 + (- u) * p) by lia.
    replace (a * (1 + - u * p) + b * (u * p)) with (a + (b * u - a * u) * p) by ring. apply Z.mod_add. lia.
  - replace (u * p) with (1 + (- v) * q) by lia.
    replace (a * (v * q) + b * (1 + - v * q)) with (b + (a * v - b * v) * q) by ring. apply Z.mod_add. lia.
Qed.
