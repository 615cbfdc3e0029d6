(** Theorems for properties C61-C63 and C65-C67: hidden order group generation and the exported
    verifier contracts. *)
From Coq Require Import ZArith Znumtheory Bool List Lia.
From Verif Require Import GoBig GoBigFacts Spec SetupModel Fermat SolModel SolProofs.
Import ListNotations.
Open Scope Z_scope.

(** ** C61: the sieve rejects nothing *)
Definition hopeless (p : Z) : Prop := exists r, In r [3; 5; 7; 11; 13; 17; 19; 23; 29; 31; 37] /\ (r | 2 * p + 1).
Theorem C61_sieve_refuted : exists p, hopeless p /\ 37 < 2 * p + 1 /\ safePrimeSieve p = true.
Proof. exists 22. split; [|split; [lia|reflexivity]]. exists 3. split; [left; reflexivity|]. exists 15. reflexivity. Qed.
(** What holds: no candidate that is still possible is rejected. Missing: that hopeless ones are. *)
Theorem C61_sieve_partial : forall p, ~ hopeless p -> safePrimeSieve p = true.
Proof.
  intros p _. unfold safePrimeSieve. apply forallb_forall. intros r _. unfold testRemainder.
  destruct (negb _); reflexivity.
Qed.
Example C61_case : ~ hopeless 23.
Proof. intros (r & Hr & k & E). cbn in Hr. repeat (destruct Hr as [<-|Hr]; [lia|]). exact Hr. Qed.

(** ** C62 *)
Lemma getSuitablePrime_spec : forall is_prime draws p rest, getSuitablePrime is_prime draws = Ret (p, rest) ->
  is_prime p = true /\ exists pre, draws = pre ++ p :: rest.
Proof.
  intros is_prime. induction draws as [|d draws IH]; intros p rest H; [discriminate|]. cbn [getSuitablePrime] in H.
  assert (K : getSuitablePrime is_prime draws = Ret (p, rest) -> is_prime p = true /\ exists pre, d :: draws = pre ++ p :: rest).
  { intros H'. destruct (IH _ _ H') as (P & pre & ->). split; [exact P|]. exists (d :: pre). reflexivity. }
  destruct (safePrimeSieve d); [|auto]. destruct (is_prime d) eqn:E; [|auto]. injection H as <- <-. split; [exact E|]. exists []. reflexivity.
Qed.
Lemma safe_loop_spec : forall is_prime fuel draws p rest, safe_loop is_prime fuel draws = Ret (p, rest) ->
  exists p' pre, p = 2 * p' + 1 /\ is_prime p' = true /\ is_prime p = true /\ draws = pre ++ p' :: rest.
Proof.
  intros is_prime. induction fuel as [|f IH]; intros draws p rest H; [discriminate|]. cbn [safe_loop] in H.
  destruct (getSuitablePrime is_prime draws) as [[r rest']| |] eqn:E; cbn [bind] in H; try discriminate.
  apply getSuitablePrime_spec in E. destruct E as (P1 & pre & ->).
  destruct (is_prime (r * 2 + 1)) eqn:E2.
  - injection H as <- <-. exists r, pre. split; [ring|]. auto.
  - apply IH in H. destruct H as (p' & pre' & H1 & H2 & H3 & H4). exists p', (pre ++ r :: pre'). split; [exact H1|]. split; [exact H2|]. split; [exact H3|].
    rewrite H4. rewrite <- app_assoc. reflexivity.
Qed.
(** The search stops at the first suitable draw: the fuel is enough. *)
Lemma getSuitablePrime_none : forall is_prime draws, getSuitablePrime is_prime draws = OutOfFuel -> forall x, In x draws -> is_prime x = false.
Proof.
  intros is_prime. induction draws as [|d draws IH]; intros H x Hx; [destruct Hx|]. cbn [getSuitablePrime] in H.
  assert (S : safePrimeSieve d = true) by (unfold safePrimeSieve; apply forallb_forall; intros r _; unfold testRemainder; destruct (negb _); reflexivity).
  rewrite S in H. destruct (is_prime d) eqn:E; [discriminate|]. destruct Hx as [<-|Hx]; auto.
Qed.
Lemma getSuitablePrime_no_panic : forall is_prime draws, getSuitablePrime is_prime draws <> Panic.
Proof. intros is_prime. induction draws as [|d t IH]; cbn [getSuitablePrime]; [discriminate|]. destruct (safePrimeSieve d); [destruct (is_prime d)|]; auto; discriminate. Qed.
Lemma getSuitablePrime_first : forall is_prime draws p rest, getSuitablePrime is_prime draws = Ret (p, rest) ->
  exists pre, draws = pre ++ p :: rest /\ Forall (fun x => is_prime x = false) pre /\ is_prime p = true.
Proof.
  intros is_prime. induction draws as [|d draws IH]; intros p rest H; [discriminate|]. cbn [getSuitablePrime] in H.
  assert (S : safePrimeSieve d = true) by (unfold safePrimeSieve; apply forallb_forall; intros r _; unfold testRemainder; destruct (negb _); reflexivity).
  rewrite S in H. destruct (is_prime d) eqn:E.
  - injection H as <- <-. exists []. split; [reflexivity|]. split; [constructor|exact E].
  - destruct (IH _ _ H) as (pre & -> & F & P). exists (d :: pre). split; [reflexivity|]. split; [constructor; assumption|exact P].
Qed.
Definition safe_prime (is_prime : Z -> bool) (p' : Z) : Prop := is_prime p' = true /\ is_prime (2 * p' + 1) = true.
Lemma safe_loop_first : forall is_prime fuel draws, (length draws <= fuel)%nat ->
  match safe_loop is_prime fuel draws with
  | Ret (p, rest) => exists pre p', draws = pre ++ p' :: rest /\ p = 2 * p' + 1 /\ safe_prime is_prime p' /\ Forall (fun x => ~ safe_prime is_prime x) pre
  | OutOfFuel => Forall (fun x => ~ safe_prime is_prime x) draws
  | Panic => False
  end.
Proof.
  intros is_prime. induction fuel as [|f IH]; intros draws HL.
  - destruct draws; [constructor|cbn in HL; lia].
  - cbn [safe_loop]. destruct (getSuitablePrime is_prime draws) as [[r rest]| |] eqn:E; cbn [bind].
    + apply getSuitablePrime_first in E. destruct E as (pre & -> & F & P).
      assert (F' : Forall (fun x => ~ safe_prime is_prime x) pre) by (eapply Forall_impl; [|exact F]; cbn; intros x Hx [C _]; congruence).
      destruct (is_prime (r * 2 + 1)) eqn:E2.
      * exists pre, r. split; [reflexivity|]. split; [ring|]. split; [|exact F']. split; [exact P|]. replace (2 * r + 1) with (r * 2 + 1) by ring. exact E2.
      * assert (NR : ~ safe_prime is_prime r) by (intros [_ C]; replace (2 * r + 1) with (r * 2 + 1) in C by ring; congruence).
        rewrite app_length in HL. cbn [length] in HL. specialize (IH rest ltac:(lia)). destruct (safe_loop is_prime f rest) as [[p rest2]| |]; [|exact IH|].
        -- destruct IH as (pre2 & p' & -> & E3 & P2 & F2). exists (pre ++ r :: pre2), p'. rewrite <- app_assoc. split; [reflexivity|]. split; [exact E3|]. split; [exact P2|].
           apply Forall_app. split; [exact F'|]. constructor; assumption.
        -- apply Forall_app. split; [exact F'|]. constructor; assumption.
    + exact (getSuitablePrime_no_panic _ _ E).
    + apply Forall_forall. intros x Hx [C _]. rewrite (getSuitablePrime_none _ _ E x Hx) in C. discriminate.
Qed.

Theorem C62_order : forall p' q', getOrder (2 * p' + 1) (2 * q' + 1) = p' * q'.
Proof.
  intros p' q'. unfold getOrder, ediv. change (Z.sgn 2) with 1. change (Z.abs 2) with 2.
  replace (2 * p' + 1 - 1) with (p' * 2) by ring. replace (2 * q' + 1 - 1) with (q' * 2) by ring. rewrite !Z.div_mul by lia. ring.
Qed.
(** The search returns 2p'+1 for the first draw p' for which p' and 2p'+1 pass the test, goes on as
    long as there is none, and leaves the later draws. *)
Theorem C62_search : forall is_prime draws,
  match getSafePrime is_prime draws with
  | Ret (p, rest) => exists pre p', draws = pre ++ p' :: rest /\ p = 2 * p' + 1 /\ safe_prime is_prime p' /\ Forall (fun x => ~ safe_prime is_prime x) pre
  | OutOfFuel => Forall (fun x => ~ safe_prime is_prime x) draws
  | Panic => False
  end.
Proof. intros is_prime draws. apply safe_loop_first. lia. Qed.
Definition trial (n : Z) : bool := (1 <? n) && forallb (fun d => negb (n mod Z.of_nat d =? 0)) (seq 2 (Z.to_nat n - 2)).
Example C62_case : getSafePrime trial [9; 13; 7; 11; 5] = Ret (23, [5]) /\ getOrder 23 11 = 55 /\ getSafePrime trial [9; 13; 7] = OutOfFuel.
Proof. repeat split. Qed.

(** ** C65: the group that is printed *)
Definition jacobi_exact (jacobi : Z -> Z -> Z) : Prop :=
  forall a p, prime p -> p <> 2 -> (jacobi a p = 1 <-> ~ (p | a) /\ exists x, x * x mod p = a mod p).
Lemma getRanQR_spec : forall jacobi draws p q g, getRanQR jacobi draws p q = Ret g -> In g draws /\ jacobi g p = 1 /\ jacobi g q = 1.
Proof.
  intros jacobi. induction draws as [|d draws IH]; intros p q g H; [discriminate|]. cbn [getRanQR] in H.
  unfold isQR in H. destruct (Z.eqb_spec (jacobi d p) 1), (Z.eqb_spec (jacobi d q) 1); cbn [andb] in H.
  1: injection H as <-; cbn; auto.
  all: destruct (IH _ _ _ H) as (H1 & H2); split; [right; exact H1|exact H2].
Qed.
Lemma qr_order : forall p' a x k, prime (2 * p' + 1) -> ~ (2 * p' + 1 | a) -> 0 <= p' -> 0 <= k -> x * x mod (2 * p' + 1) = a mod (2 * p' + 1) ->
  a ^ (p' * k) mod (2 * p' + 1) = 1.
Proof.
  intros p' a x k Hp Ha Hp' Hk E. pose proof (prime_ge_2 _ Hp).
  assert (Hx : ~ (2 * p' + 1 | x)).
  { intros D. apply Ha. apply Z.mod_divide; [lia|]. rewrite <- E. apply Z.mod_divide; [lia|]. now apply Z.divide_mul_l. }
  pose proof (fermat _ x Hp Hx) as F. replace (2 * p' + 1 - 1) with (2 * p') in F by ring.
  assert (R : a ^ p' mod (2 * p' + 1) = 1).
  { rewrite <- pow_mod_idem by lia. rewrite <- E. rewrite pow_mod_idem by lia. replace (x * x) with (x ^ 2) by ring. rewrite <- Z.pow_mul_r by lia. exact F. }
  rewrite Z.pow_mul_r by lia. rewrite <- pow_mod_idem by lia. rewrite R. rewrite Z.pow_1_l by lia. apply Z.mod_small. lia.
Qed.
Theorem C65_group : forall is_prime jacobi primes ints rnd N g h,
  (forall x, is_prime x = true -> prime x) -> jacobi_exact jacobi -> Forall (fun x => 0 <= x) ints -> 0 <= rnd -> NoDup primes ->
  TrustedSetupForQRN is_prime jacobi primes ints rnd = Ret (N, g, h) ->
  exists p' q', In p' primes /\ In q' primes /\ p' <> q' /\ prime p' /\ prime q' /\ prime (2 * p' + 1) /\ prime (2 * q' + 1) /\
    N = (2 * p' + 1) * (2 * q' + 1) /\ In g ints /\ Z.gcd g N = 1 /\ (exists x, x * x mod N = g mod N) /\ g ^ (p' * q') mod N = 1 /\
    exists k, 0 <= k < p' * q' /\ h = g ^ k mod N.
Proof.
  intros is_prime jacobi primes ints rnd N g h HP HJ Hints Hrnd ND H. unfold TrustedSetupForQRN in H.
  pose proof (C62_search is_prime primes) as S1. destruct (getSafePrime is_prime primes) as [[p rest]| |]; cbn [bind] in H; try discriminate.
  pose proof (C62_search is_prime rest) as S2. destruct (getSafePrime is_prime rest) as [[q rest2]| |]; cbn [bind] in H; try discriminate.
  destruct S1 as (pre1 & p' & -> & -> & [P1 P2] & _). destruct S2 as (pre2 & q' & -> & -> & [Q1 Q2] & _).
  apply HP in P1, P2, Q1, Q2.
  assert (Hne : p' <> q').
  { intros ->. apply NoDup_remove_2 in ND. apply ND. apply in_or_app. right. apply in_or_app. right. left. reflexivity. }
  pose proof (prime_ge_2 _ P1) as GP. pose proof (prime_ge_2 _ Q1) as GQ.
  assert (L1 : 0 < 2 * p' + 1) by lia. assert (L2 : 0 < 2 * q' + 1) by lia.
  destruct (getRanQR jacobi ints (2 * p' + 1) (2 * q' + 1)) as [g0| |] eqn:EG; cbn [bind] in H; try discriminate.
  apply getRanQR_spec in EG. destruct EG as (IG & J1 & J2).
  apply (HJ _ _ P2 ltac:(lia)) in J1. apply (HJ _ _ Q2 ltac:(lia)) in J2. destruct J1 as (D1 & x & E1), J2 as (D2 & y & E2).
  rewrite C62_order in H. unfold go_mod in H. assert (HO : 0 < p' * q') by (apply Z.mul_pos_pos; lia).
  destruct (Z.eqb_spec (p' * q') 0); [lia|]. cbn [bind] in H. unfold emod in H. rewrite Z.abs_eq in H by lia.
  assert (HN : 0 < (2 * p' + 1) * (2 * q' + 1)) by (apply Z.mul_pos_pos; lia).
  pose proof (Z.mod_pos_bound rnd _ HO) as HK.
  rewrite exp_recv_nonneg in H; [|exact HN|exact (proj1 HK)]. injection H as <- <- <-.
  assert (G : Z.gcd (2 * p' + 1) (2 * q' + 1) = 1) by (apply primes_coprime; [exact P2|exact Q2|clear -Hne; lia]).
  exists p', q'. split; [apply in_or_app; right; left; reflexivity|].
  split; [apply in_or_app; right; right; apply in_or_app; right; left; reflexivity|].
  split; [exact Hne|]. split; [exact P1|]. split; [exact Q1|]. split; [exact P2|]. split; [exact Q2|]. split; [reflexivity|]. split; [exact IG|].
  split.
  { apply Zgcd_1_rel_prime. apply rel_prime_mult; apply rel_prime_sym; apply prime_rel_prime; assumption. }
  split.
  { destruct (crt (2 * p' + 1) (2 * q' + 1) x y L1 L2 G) as (z & Z1 & Z2). exists z.
    apply (eqm_pq (2 * p' + 1) (2 * q' + 1)); [exact L1|exact L2|exact G| |].
    - rewrite Zmult_mod, Z1, <- Zmult_mod. exact E1.
    - rewrite Zmult_mod, Z2, <- Zmult_mod. exact E2. }
  split.
  { transitivity (1 mod ((2 * p' + 1) * (2 * q' + 1))); [|apply Z.mod_small; clear -GP GQ; nia]. apply (eqm_pq (2 * p' + 1) (2 * q' + 1)); [exact L1|exact L2|exact G| |].
    - rewrite (Z.mod_small 1) by (clear -GP; lia). apply (qr_order p' g0 x q'); auto; clear -GP GQ; lia.
    - rewrite (Z.mod_small 1) by (clear -GQ; lia). rewrite (Z.mul_comm p' q'). apply (qr_order q' g0 y p'); auto; clear -GP GQ; lia. }
  exists (rnd mod (p' * q')). split; [exact HK|reflexivity].
Qed.
(** crand.Prime(1023) sets the two top bits; then N has 2048 bits and the draws for g are below N. *)
Theorem C65_size : forall is_prime jacobi primes ints rnd N g h,
  Forall (fun x => 3 * 2 ^ 1021 <= x < 2 ^ 1023) primes -> Forall (fun x => 0 <= x < 2 ^ 2047) ints -> 0 <= rnd ->
  TrustedSetupForQRN is_prime jacobi primes ints rnd = Ret (N, g, h) ->
  bit_len N = 2048 /\ 0 <= g < N /\ 0 <= h < N.
Proof.
  intros is_prime jacobi primes ints rnd N g h HPr Hints Hrnd H. unfold TrustedSetupForQRN in H.
  pose proof (C62_search is_prime primes) as S1. destruct (getSafePrime is_prime primes) as [[p rest]| |]; cbn [bind] in H; try discriminate.
  pose proof (C62_search is_prime rest) as S2. destruct (getSafePrime is_prime rest) as [[q rest2]| |]; cbn [bind] in H; try discriminate.
  destruct S1 as (pre1 & p' & -> & -> & _ & _). destruct S2 as (pre2 & q' & -> & -> & _ & _).
  destruct (getRanQR jacobi ints (2 * p' + 1) (2 * q' + 1)) as [g0| |] eqn:EG; cbn [bind] in H; try discriminate.
  apply getRanQR_spec in EG. destruct EG as (IG & _). rewrite Forall_forall in Hints. apply Hints in IG.
  rewrite Forall_forall in HPr. pose proof (HPr p' ltac:(apply in_or_app; right; left; reflexivity)) as Bp.
  pose proof (HPr q' ltac:(apply in_or_app; right; right; apply in_or_app; right; left; reflexivity)) as Bq. clear HPr Hints.
  rewrite C62_order in H. unfold go_mod in H. set (N0 := (2 * p' + 1) * (2 * q' + 1)) in *.
  assert (BN : 2 ^ 2047 <= N0 < 2 ^ 2048 /\ 0 < p' * q').
  { assert (E1 : 2 ^ 1023 = 2 * 2 ^ 1022) by reflexivity. assert (E2 : 3 * 2 ^ 1021 * 2 = 3 * 2 ^ 1022) by reflexivity.
    assert (E3 : 2 ^ 2047 = 8 * (2 ^ 1022 * 2 ^ 1022)) by reflexivity. assert (E4 : 2 ^ 2048 = 16 * (2 ^ 1022 * 2 ^ 1022)) by reflexivity.
    assert (E5 : 0 < 2 ^ 1022) by reflexivity. rewrite E3, E4.
    assert (Hp : 3 * 2 ^ 1022 <= 2 * p' + 1 < 4 * 2 ^ 1022) by lia. assert (Hq : 3 * 2 ^ 1022 <= 2 * q' + 1 < 4 * 2 ^ 1022) by lia.
    assert (Pp : 0 < p') by lia. assert (Pq : 0 < q') by lia. subst N0. clear -E5 Hp Hq Pp Pq. revert Hp Hq E5. generalize (2 ^ 1022). intros A Hp Hq HA. nia. }
  destruct BN as [BN HO]. destruct (Z.eqb_spec (p' * q') 0); [lia|]. cbn [bind] in H. unfold emod in H. rewrite Z.abs_eq in H by lia.
  assert (P2047 : 0 < 2 ^ 2047) by reflexivity.
  rewrite exp_recv_nonneg in H; [|lia|apply Z.mod_pos_bound; exact HO]. injection H as <- <- <-. fold N0.
  split; [|split; [lia|apply Z.mod_pos_bound; lia]].
  unfold bit_len. destruct (Z.eqb_spec N0 0); [lia|]. rewrite Z.abs_eq by lia. rewrite (Z.log2_unique N0 2047); [reflexivity|lia|].
  change (Z.succ 2047) with 2048. exact BN.
Qed.
Definition toy_jacobi (a p : Z) : Z := if (a mod p =? 0) then 0 else if existsb (fun x => Z.of_nat x * Z.of_nat x mod p =? a mod p) (seq 1 (Z.to_nat p)) then 1 else -1.
Lemma trial_prime : forall n, trial n = true -> prime n.
Proof.
  intros n H. unfold trial in H. apply andb_true_iff in H. destruct H as [H1 H2]. apply Z.ltb_lt in H1. rewrite forallb_forall in H2.
  apply prime_alt. split; [exact H1|]. intros d Hd D. specialize (H2 (Z.to_nat d)). rewrite Z2Nat.id in H2 by lia.
  apply Z.mod_divide in D; [|lia]. rewrite D in H2. cbn in H2. discriminate H2. apply in_seq. lia.
Qed.
Lemma toy_jacobi_exact : jacobi_exact toy_jacobi.
Proof.
  intros a p Hp Hp2. pose proof (prime_ge_2 _ Hp). unfold toy_jacobi. destruct (Z.eqb_spec (a mod p) 0) as [E|E].
  - split; [discriminate|]. intros [D _]. exfalso. apply D. apply Z.mod_divide; [lia|exact E].
  - destruct (existsb _ _) eqn:EX.
    + split; [intros _|reflexivity]. split; [intros D; apply E; apply Z.mod_divide; [lia|exact D]|].
      apply existsb_exists in EX. destruct EX as (x & _ & Hx). apply Z.eqb_eq in Hx. exists (Z.of_nat x). exact Hx.
    + split; [discriminate|]. intros [_ (x & Hx)]. exfalso.
      assert (T : existsb (fun x => Z.of_nat x * Z.of_nat x mod p =? a mod p) (seq 1 (Z.to_nat p)) = true).
      { apply existsb_exists. exists (Z.to_nat (x mod p)). pose proof (Z.mod_pos_bound x p ltac:(lia)) as B.
        assert (E2 : (x mod p) * (x mod p) mod p = a mod p) by (rewrite <- Zmult_mod; exact Hx). split.
        - apply in_seq. assert (x mod p <> 0) by (intros C; rewrite C in E2; rewrite Z.mul_0_l, Z.mod_0_l in E2 by lia; congruence). lia.
        - rewrite Z2Nat.id by lia. apply Z.eqb_eq. exact E2. }
      congruence.
Qed.
Example C65_case : TrustedSetupForQRN trial toy_jacobi [7; 5; 13; 11] [2; 11; 7; 4; 3] 143 = Ret (253, 4, 185).
Proof. vm_compute. reflexivity. Qed.
Example C65_size_case : exists N g h, TrustedSetupForQRN (fun _ => true) (fun _ _ => 1) [3 * 2 ^ 1021 + 1; 3 * 2 ^ 1021 + 3] [2 ^ 2046 + 5] 0 = Ret (N, g, h) /\ h = 1.
Proof. do 3 eexists. split; [vm_compute; reflexivity|reflexivity]. Qed.
(** Nothing in TrustedSetupForQRN compares the two primes. *)
Theorem C65_equal_primes_refuted : exists primes ints rnd p g h,
  TrustedSetupForQRN trial toy_jacobi primes ints rnd = Ret (p * p, g, h) /\ prime p.
Proof. exists [5; 5], [4], 7, 11, 4, 49. split; [vm_compute; reflexivity|]. apply trial_prime. reflexivity. Qed.

(** ** C63: the contract's range checks *)
Theorem C63_canonical : forall ecAdd ecMul ecPairing vk a b c input r,
  verifyProof ecAdd ecMul ecPairing vk a b c input = Some r ->
  Forall (fun x => x < PRIME_Q) [fst a; snd a; fst (fst b); snd (fst b); fst (snd b); snd (snd b); fst c; snd c] /\
  Forall (fun x => x < SNARK_SCALAR_FIELD) input.
Proof.
  intros ecAdd ecMul ecPairing vk a b c input r H. apply verifyProof_some in H. destruct H as ((C1 & C2 & C3 & C4 & C5 & C6 & C7 & C8) & HI & _).
  split; [|exact HI]. repeat (apply Forall_cons; [assumption|]). apply Forall_nil.
Qed.
Theorem C63_no_aliases : forall ecAdd ecMul ecPairing vk a b c a' b' c' input input' r r',
  Forall (fun x => 0 <= x) input -> Forall (fun x => 0 <= x) input' ->
  Forall2 (fun x y => x mod SNARK_SCALAR_FIELD = y mod SNARK_SCALAR_FIELD) input input' ->
  verifyProof ecAdd ecMul ecPairing vk a b c input = Some r -> verifyProof ecAdd ecMul ecPairing vk a' b' c' input' = Some r' ->
  input = input'.
Proof.
  intros ecAdd ecMul ecPairing vk a b c a' b' c' input input' r r' N1 N2 F H1 H2.
  apply C63_canonical in H1, H2. destruct H1 as [_ H1], H2 as [_ H2]. clear -N1 N2 F H1 H2.
  induction F as [|x y l m E F IH]; [reflexivity|]. inversion_clear N1. inversion_clear N2. inversion_clear H1. inversion_clear H2.
  rewrite !Z.mod_small in E by lia. subst. f_equal. apply IH; assumption.
Qed.

(** ** C67: the equation *)
Theorem C67_groth16 : forall (G H T : Type) add zero opp mul tadd tzero topp e dec1 dec2 ecAdd ecMul ecPairing,
  groups G H T add zero opp tadd tzero topp e -> precompiled G H T add zero opp mul tadd tzero e dec1 dec2 ecAdd ecMul ecPairing ->
  forall vk al be ga de I0 Is a b c input,
  dec1 (alfa1 vk) = Some al -> dec2 (beta2 vk) = Some be -> dec2 (gamma2 vk) = Some ga -> dec2 (delta2 vk) = Some de ->
  Forall2 (fun p P => dec1 p = Some P) (IC vk) (I0 :: Is) -> length input = length Is ->
  Forall (fun x => 0 <= x) input -> 0 <= snd a ->
  (verifyProof ecAdd ecMul ecPairing vk a b c input = Some true <->
   coords_ok a b c /\ Forall (fun x => x < SNARK_SCALAR_FIELD) input /\
   exists A B C, dec1 (G1 (fst a) (snd a)) = Some A /\ dec2 (G2 (fst b) (snd b)) = Some B /\ dec1 (G1 (fst c) (snd c)) = Some C /\
     e A B = tadd (e al be) (tadd (e (combination G add mul I0 Is input) ga) (tadd (e C de) tzero))).
Proof.
  intros G H T add zero opp mul tadd tzero topp e dec1 dec2 ecAdd ecMul ecPairing HG HP.
  exact (verifyProof_equation G H T add zero opp mul tadd tzero topp e dec1 dec2 ecAdd ecMul ecPairing HG HP).
Qed.

(** The two-element group behind all three contracts: the point 1 is (1,1) or (1,q-1). *)
Definition b_dec1 (p : G1Point) : option bool :=
  if (X1 p =? 0) && (Y1 p =? 0) then Some false
  else if (X1 p =? 1) && ((Y1 p =? 1) || (Y1 p =? PRIME_Q - 1)) then Some true else None.
Definition b_enc (b : bool) : G1Point := if b then G1 1 1 else G1 0 0.
Definition b_dec2 (p : G2Point) : option bool :=
  if fst (X2 p) =? 0 then Some false else if fst (X2 p) =? 1 then Some true else None.
Definition b_mul (s : Z) (b : bool) : bool := Z.odd s && b.
Definition b_ecAdd (p q : G1Point) : option G1Point :=
  match b_dec1 p, b_dec1 q with Some a, Some b => Some (b_enc (xorb a b)) | _, _ => None end.
Definition b_ecMul (p : G1Point) (s : Z) : option G1Point := match b_dec1 p with Some a => Some (b_enc (b_mul s a)) | None => None end.
Fixpoint b_sum (l : list (G1Point * G2Point)) : option bool :=
  match l with
  | [] => Some false
  | (p, q) :: l => match b_dec1 p, b_dec2 q, b_sum l with Some a, Some b, Some c => Some (xorb (a && b) c) | _, _, _ => None end
  end.
Definition b_ecPairing (l : list (G1Point * G2Point)) : option bool := match b_sum l with Some b => Some (negb b) | None => None end.
Lemma b_groups : groups bool bool bool xorb false (fun b => b) xorb false (fun b => b) andb.
Proof.
  constructor.
  - intros [] []; reflexivity.
  - intros [] [] []; reflexivity.
  - intros []; reflexivity.
  - intros [] []; cbn; split; congruence.
  - intros [] []; reflexivity.
Qed.
Lemma b_dec_enc : forall b, b_dec1 (b_enc b) = Some b.
Proof. intros []; reflexivity. Qed.
Lemma b_dec1_true : forall x y P, b_dec1 (G1 x y) = Some P -> (x, y) <> (0, 0) -> P = true /\ x = 1 /\ (y = 1 \/ y = PRIME_Q - 1).
Proof.
  intros x y P HD Hne. unfold b_dec1 in HD. cbn [X1 Y1] in HD.
  destruct (Z.eqb_spec x 0) as [X0|X0], (Z.eqb_spec y 0) as [Y0|Y0]; cbn [andb] in HD; [exfalso; apply Hne; congruence| | |].
  all: destruct (Z.eqb_spec x 1); cbn [andb] in HD; [|discriminate]; destruct (Z.eqb_spec y 1), (Z.eqb_spec y (PRIME_Q - 1)); cbn [orb] in HD; try discriminate; injection HD as <-; auto.
Qed.
Lemma b_dec1_intro : forall y, y = 1 \/ y = PRIME_Q - 1 -> b_dec1 (G1 1 y) = Some true.
Proof. intros y [->| ->]; vm_compute; reflexivity. Qed.
Lemma b_precompiled : precompiled bool bool bool xorb false (fun b => b) b_mul xorb false andb b_dec1 b_dec2 b_ecAdd b_ecMul b_ecPairing.
Proof.
  assert (QP : 2 < PRIME_Q) by reflexivity. constructor.
  - reflexivity.
  - intros x y P HD Hne. destruct (b_dec1_true _ _ _ HD Hne) as (-> & -> & HY). split; [lia|]. intros _. apply b_dec1_intro. lia.
  - reflexivity.
  - intros x y P Hy HD Hne. assert (Hne2 : (x, PRIME_Q - y) <> (0, 0)) by (intros C; apply (f_equal snd) in C; cbn [snd] in C; lia).
    destruct (b_dec1_true _ _ _ HD Hne2) as (-> & -> & HY). rewrite b_dec1_intro by lia. discriminate.
  - intros p q. unfold b_ecAdd. destruct (b_dec1 p) as [P|] eqn:EP, (b_dec1 q) as [Q|] eqn:EQ; [left|right..]; auto.
    exists P, Q, (b_enc (xorb P Q)). repeat split. apply b_dec_enc.
  - intros p s _. unfold b_ecMul. destruct (b_dec1 p) as [P|] eqn:EP; [left|right; auto]. exists P, (b_enc (b_mul s P)). repeat split. apply b_dec_enc.
  - intros l r. unfold b_ecPairing.
    assert (S1 : forall v, b_sum l = Some v -> exists ps, Forall2 (fun pq PQ => b_dec1 (fst pq) = Some (fst PQ) /\ b_dec2 (snd pq) = Some (snd PQ)) l ps /\
        v = fold_right (fun PQ acc => xorb (fst PQ && snd PQ) acc) false ps).
    { clear r. induction l as [|[p q] l IH]; intros v Hv; [exists []; split; [apply Forall2_nil|]; cbn in Hv |- *; congruence|]. cbn [b_sum] in Hv.
      destruct (b_dec1 p) as [P|] eqn:EP; [|discriminate]. destruct (b_dec2 q) as [Q|] eqn:EQ; [|discriminate]. destruct (b_sum l) as [w|]; [|discriminate].
      destruct (IH w eq_refl) as (ps & F & ->). exists ((P, Q) :: ps). split; [apply Forall2_cons; [cbn [fst snd]; auto|exact F]|]. cbn [fold_right fst snd]. congruence. }
    assert (S2 : forall ps, Forall2 (fun pq PQ => b_dec1 (fst pq) = Some (fst PQ) /\ b_dec2 (snd pq) = Some (snd PQ)) l ps ->
        b_sum l = Some (fold_right (fun PQ acc => xorb (fst PQ && snd PQ) acc) false ps)).
    { clear. intros ps F. induction F as [|[p q] [P Q] l ps [H1 H2] F IH]; [reflexivity|]. cbn [fst snd] in H1, H2. cbn [b_sum fold_right fst snd]. rewrite H1, H2, IH. reflexivity. }
    split.
    + destruct (b_sum l) as [v|] eqn:E; [|discriminate]. intros HR. injection HR as <-. destruct (S1 v eq_refl) as (ps & F & ->). exists ps. split; [exact F|].
      destruct (fold_right _ _ _); cbn; split; congruence.
    + intros (ps & F & HR). rewrite (S2 ps F). f_equal. destruct (fold_right _ _ _); cbn; destruct r; try reflexivity; intuition congruence.
Qed.
Definition b_vk : VerifyingKey := VK (G1 1 1) (G2 (1, 0) (0, 0)) (G2 (1, 0) (0, 0)) (G2 (1, 0) (0, 0)) [G1 1 1; G1 1 1; G1 0 0].
Example C67_case :
  verifyProof b_ecAdd b_ecMul b_ecPairing b_vk (1, PRIME_Q - 1) ((1, 7), (8, 9)) (0, 0) [3; 5] = Some true /\
  verifyProof b_ecAdd b_ecMul b_ecPairing b_vk (1, PRIME_Q - 1) ((1, 7), (8, 9)) (0, 0) [4; 5] = Some false /\
  verifyProof b_ecAdd b_ecMul b_ecPairing b_vk (1, 1) ((2, 7), (8, 9)) (0, 0) [3; 5] = None /\
  verifyProof b_ecAdd b_ecMul b_ecPairing b_vk (1, 1) ((1, 7), (8, 9)) (0, 0) [3 + SNARK_SCALAR_FIELD; 5] = None.
Proof. vm_compute. repeat split. Qed.

(** ** C66: the constants *)
Theorem C66_keys : forall vk, In vk [Notus_vk; Contract_vk; GnarkTest_vk] ->
  on_g1 (alfa1 vk) = true /\ Forall (fun p => on_g1 p = true) (IC vk) /\
  Forall (fun p => on_twist p = true) [beta2 vk; gamma2 vk; delta2 vk] /\ length (IC vk) = (7 + 1)%nat.
Proof.
  assert (K : forall vk, key_ok vk = true -> length (IC vk) = 8%nat -> on_g1 (alfa1 vk) = true /\ Forall (fun p => on_g1 p = true) (IC vk) /\
     Forall (fun p => on_twist p = true) [beta2 vk; gamma2 vk; delta2 vk] /\ length (IC vk) = (7 + 1)%nat).
  { intros vk HK HL. unfold key_ok in HK. apply andb_true_iff in HK. destruct HK as [HK H3]. apply andb_true_iff in HK. destruct HK as [H1 H2].
    split; [exact H1|]. split; [apply Forall_forall; apply forallb_forall; exact H2|]. split; [apply Forall_forall; apply forallb_forall; exact H3|exact HL]. }
  intros vk [<-|[<-|[<-|[]]]]; apply K; vm_compute; reflexivity.
Qed.

Print Assumptions C61_sieve_refuted.
Print Assumptions C61_sieve_partial.
Print Assumptions C62_order.
Print Assumptions C62_search.
Print Assumptions C63_canonical.
Print Assumptions C63_no_aliases.
Print Assumptions C65_group.
Print Assumptions C65_size.
Print Assumptions C65_equal_primes_refuted.
Print Assumptions C66_keys.
Print Assumptions C67_groth16.
