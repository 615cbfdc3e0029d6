(** Theorems for properties C34-C39 (proof/poke.go). sha is an arbitrary hash; is_prime is any test
    whose accepted numbers are greater than 1. fuel bounds the search for the prime challenge. *)
From Coq Require Import ZArith Bool Lia String List.
From Verif Require Import GoBig GoBigFacts Spec StrFacts HashModel FSModel FSProofs PropertiesHash PokeModel PokeProofs.
Import ListNotations.
Open Scope Z_scope.

Definition test_ok (is_prime : Z -> bool) : Prop := forall p, is_prime p = true -> 1 < p.
Lemma toy_prime_ok : test_ok toy_prime.
Proof.
  intros p H. unfold toy_prime in H. rewrite !orb_true_iff, !Z.eqb_eq in H. lia.
Qed.
Definition odd_toy_prime (p : Z) : bool := toy_prime p && Z.odd p.
Lemma odd_toy_prime_ok : test_ok odd_toy_prime.
Proof. intros p H. apply toy_prime_ok. unfold odd_toy_prime in H. now apply andb_prop in H. Qed.

(** Go's Exp computes the power whenever it exists *)
Lemma is_power_iff : forall m g k v, 0 < m -> 0 <= k \/ (0 <= g /\ coprime g m) ->
  exp_recv 0 g k m = v <-> is_power m g k v.
Proof.
  intros m g k v Hm Hg. rewrite exp_recv_up. unfold is_power. split.
  - intros <-. split; [now apply up_range'|]. split; intros Hk; [now apply up_nonneg|].
    destruct Hg as [Hg|[Hg Hc]]; [lia|]. rewrite (up_rep m g k Hm Hg Hc (- k)) by lia.
    now rewrite Z.add_opp_diag_r.
  - intros (Hv & P1 & P2). destruct (Z_le_gt_dec 0 k) as [Hk|Hk]; [rewrite up_nonneg by assumption; symmetry; auto|].
    destruct Hg as [Hg|[Hg Hc]]; [lia|]. specialize (P2 ltac:(lia)).
    pose proof (up_rep m g k Hm Hg Hc (- k) ltac:(lia) ltac:(lia)) as U. rewrite Z.add_opp_diag_r in U.
    change (g ^ 0) with 1 in U. rewrite <- P2 in U.
    apply unit_cancel in U; [|lia|now apply coprime_pow; [lia|]].
    rewrite !Z.mod_small in U by (lia || now apply up_range'). exact U.
Qed.

(** ** C34 *)
Theorem C34_PoKEStar_complete : forall sha is_prime, test_ok is_prime ->
  forall pp C x, 0 < ppN pp -> 0 <= ppG pp ->
  (* every proof handed out is accepted *)
  (forall fuel fuel' pf, (fuel <= fuel')%nat ->
     PoKEStarProve sha is_prime fuel pp C x = Ret (Some pf) ->
     PoKEStarVerify sha is_prime fuel' pp C (Some pf) = Ret true) /\
  (* an error exactly when C is not G^x *)
  (0 <= x \/ coprime (ppG pp) (ppN pp) -> forall fuel,
     (PoKEStarProve sha is_prime fuel pp C x = Ret None <-> ~ is_power (ppN pp) (ppG pp) x C)) /\
  (* a true statement gets a proof as soon as the challenge is found *)
  (0 <= x \/ coprime (ppG pp) (ppN pp) -> is_power (ppN pp) (ppG pp) x C -> forall fuel r,
     GetPrimeChallenge sha is_prime fuel (poke_transcript pp C) = Ret r ->
     exists pf, PoKEStarProve sha is_prime fuel pp C x = Ret (Some pf)).
Proof.
  intros sha is_prime Hp pp C x HN HG. split; [|split].
  - intros fuel fuel' pf Hf. now apply PoKEStar_complete.
  - intros Hx fuel. rewrite PoKEStar_refuses. rewrite is_power_iff by tauto. reflexivity.
  - intros Hx HC fuel [l t'] El. apply is_power_iff in HC; [|assumption|tauto].
    unfold PoKEStarProve. rewrite HC, Z.eqb_refl, El. cbn [negb bind].
    pose proof (prime_challenge_pos sha is_prime Hp _ _ _ _ El). rewrite div_mod_pos by lia. cbn [bind]. eauto.
Qed.
(** exponents of both signs, error case, and a wrong proof that is rejected *)
Example C34_case :
  let pp := {| ppN := 77; ppG := 4; ppH := 9 |} in
  (exists pf, PoKEStarProve toy_sha toy_prime 300 pp (4 ^ 100 mod 77) 100 = Ret (Some pf) /\
     PoKEStarVerify toy_sha toy_prime 300 pp (4 ^ 100 mod 77) (Some pf) = Ret true /\ ps_R pf <> 0 /\ ps_Q pf <> 1 /\
     PoKEStarVerify toy_sha toy_prime 300 pp (4 ^ 100 mod 77) (Some {| ps_Q := ps_Q pf; ps_R := ps_R pf + 1 |}) = Ret false) /\
  (exists pf, PoKEStarProve toy_sha toy_prime 300 pp 16 (-28) = Ret (Some pf) /\
     PoKEStarVerify toy_sha toy_prime 300 pp 16 (Some pf) = Ret true) /\
  PoKEStarProve toy_sha toy_prime 300 pp 16 3 = Ret None.
Proof.
  cbv zeta. split; [|split].
  - eexists. split; [vm_compute; reflexivity|]. vm_compute. repeat split; discriminate.
  - eexists. split; [vm_compute; reflexivity|]. vm_compute. reflexivity.
  - vm_compute. reflexivity.
Qed.

(** outside the stated domain the error is missing: G shares a factor with N, x is negative; no
    inverse exists, Exp leaves 0 and a "proof" for C = 0 is produced and accepted *)
Theorem C34_nonunit_refuted : exists pp C x fuel pf,
  (forall v, ~ is_power (ppN pp) (ppG pp) x v) /\
  PoKEStarProve toy_sha toy_prime fuel pp C x = Ret (Some pf) /\
  PoKEStarVerify toy_sha toy_prime fuel pp C (Some pf) = Ret true.
Proof.
  exists {| ppN := 77; ppG := 7; ppH := 9 |}, 0, (-3), 300%nat. eexists. split; [|split].
  - intros v (Hv & _ & H). cbn [ppN ppG] in *. specialize (H ltac:(lia)). change (7 ^ (- (-3))) with 343 in H.
    rewrite Z.mod_eq in H by lia. change (1 mod 77) with 1 in H. clear Hv. lia.
  - vm_compute. reflexivity.
  - vm_compute. reflexivity.
Qed.

(** ** C35 *)
Theorem C35_PoE_complete : forall sha is_prime, test_ok is_prime ->
  forall base N C x, 0 < N -> 0 <= base ->
  (forall fuel fuel' pf, (fuel <= fuel')%nat ->
     PoEProve sha is_prime fuel base N C x = Ret (Some pf) ->
     PoEVerify sha is_prime fuel' base N C x (Some pf) = Ret true) /\
  (0 <= x \/ coprime base N -> forall fuel,
     (PoEProve sha is_prime fuel base N C x = Ret None <-> ~ is_power N base x C)) /\
  (0 <= x \/ coprime base N -> is_power N base x C -> forall fuel r,
     GetPrimeChallenge sha is_prime fuel (poe_transcript base N C x) = Ret r ->
     exists pf, PoEProve sha is_prime fuel base N C x = Ret (Some pf)).
Proof.
  intros sha is_prime Hp base N C x HN HG. split; [|split].
  - intros fuel fuel' pf Hf. now apply PoE_complete.
  - intros Hx fuel. rewrite PoE_refuses. rewrite is_power_iff by tauto. reflexivity.
  - intros Hx HC fuel [l t'] El. apply is_power_iff in HC; [|assumption|tauto].
    unfold PoEProve. rewrite HC, Z.eqb_refl, El. cbn [negb bind].
    pose proof (prime_challenge_pos sha is_prime Hp _ _ _ _ El).
    unfold go_div. rewrite (proj2 (Z.eqb_neq l 0)) by lia. cbn [bind]. eauto.
Qed.
Example C35_case :
  (exists pf, PoEProve toy_sha toy_prime 300 4 77 (4 ^ 100 mod 77) 100 = Ret (Some pf) /\
     PoEVerify toy_sha toy_prime 300 4 77 (4 ^ 100 mod 77) 100 (Some pf) = Ret true /\ poe_Q pf <> 1 /\
     PoEVerify toy_sha toy_prime 300 4 77 (4 ^ 100 mod 77) 100 (Some {| poe_Q := poe_Q pf + 1 |}) = Ret false) /\
  PoEProve toy_sha toy_prime 300 4 77 16 3 = Ret None.
Proof.
  split; [|vm_compute; reflexivity]. eexists. split; [vm_compute; reflexivity|]. vm_compute. repeat split; discriminate.
Qed.

(** ** C36. The coins are those of rand.Int: any non-negative numbers. *)
Theorem C36_ZKPoKE_complete : forall sha is_prime, test_ok is_prime ->
  forall pp u x w k rhox rhok, 0 < ppN pp -> 0 <= k -> 0 <= rhox -> 0 <= rhok ->
  0 <= x \/ (0 <= ppG pp /\ coprime (ppG pp) (ppN pp) /\ 0 <= u /\ coprime u (ppN pp)) ->
  (forall fuel fuel' pf, (fuel <= fuel')%nat ->
     ZKPoKEProve sha is_prime fuel pp u x w k rhox rhok = Ret (Some pf) ->
     ZKPoKEVerify sha is_prime fuel' pp u w (Some pf) = Ret true) /\
  (forall fuel, ZKPoKEProve sha is_prime fuel pp u x w k rhox rhok = Ret None <-> ~ is_power (ppN pp) u x w).
Proof.
  intros sha is_prime Hp pp u x w k rhox rhok HN Hk Hrx Hrk Hx. split.
  - intros fuel fuel' pf Hf. now apply ZKPoKE_complete.
  - intros fuel. rewrite ZKPoKE_refuses by assumption. rewrite is_power_iff by tauto. reflexivity.
Qed.
(** coins at the ends of their range, both signs of x; a proof with a changed component is rejected *)
Example C36_case :
  let pp := {| ppN := 77; ppG := 4; ppH := 9 |} in
  let b := zkpoke_coin_bound pp in
  (exists pf, ZKPoKEProve toy_sha toy_prime 300 pp 16 5 (16 ^ 5 mod 77) (b - 1) 0 (b - 2) = Ret (Some pf) /\
     ZKPoKEVerify toy_sha toy_prime 300 pp 16 (16 ^ 5 mod 77) (Some pf) = Ret true /\
     ZKPoKEVerify toy_sha toy_prime 300 pp 16 (16 ^ 5 mod 77)
       (Some {| zk_z := zk_z pf; zk_Ag := zk_Ag pf; zk_Au := zk_Au pf; zk_Qg := zk_Qg pf; zk_Qu := zk_Qu pf + 1;
                zk_rx := zk_rx pf; zk_rrho := zk_rrho pf |}) = Ret false) /\
  (exists pf, ZKPoKEProve toy_sha toy_prime 300 pp 16 (-14) 16 3 (b - 1) 7 = Ret (Some pf) /\
     ZKPoKEVerify toy_sha toy_prime 300 pp 16 16 (Some pf) = Ret true).
Proof.
  cbv zeta. split; (eexists; split; [vm_compute; reflexivity|]); vm_compute; repeat split.
Qed.

(** ** C37. Refuted: an element of order two is free. For every hash and primality test, every
    modulus above 2, invertible base and exponent, the negated result has an accepted proof. *)
Theorem C37_PoE_forgery : forall sha is_prime fuel base N x l t',
  2 < N -> coprime base N -> 0 <= x ->
  let C := N - base ^ x mod N in
  GetPrimeChallenge sha is_prime fuel (poe_transcript base N C x) = Ret (l, t') -> 1 < l -> Z.odd l = true ->
  C <> base ^ x mod N /\ exists pf, PoEVerify sha is_prime fuel base N C x (Some pf) = Ret true.
Proof.
  intros sha is_prime fuel base N x l t' HN Hc Hx C El Hl Ho.
  set (p := base ^ x mod N) in *. assert (Hp : 0 <= p < N) by (apply Z.mod_pos_bound; lia).
  assert (Hg : Z.gcd p N = 1). { unfold p. apply coprime_mod; [lia|]. now apply coprime_pow. }
  split.
  - unfold C. intros E. assert (N = p * 2) by lia. replace N with (p * 2) in Hg by assumption.
    rewrite Z.gcd_mul_diag_l in Hg by lia. lia.
  - eexists. unfold C, p. eapply PoE_forge with (t' := t'); try eassumption; try lia.
    fold p. intros E. rewrite E, Z.gcd_0_l in Hg. lia.
Qed.
(** the unconditional form of the property is false *)
Theorem C37_PoE_soundness_refuted : exists sha is_prime fuel base N C x pf, test_ok is_prime /\ 1 < N /\ coprime base N /\ 0 <= x /\
  PoEVerify sha is_prime fuel base N C x (Some pf) = Ret true /\ base ^ x mod N <> C.
Proof.
  assert (E : exists l t', GetPrimeChallenge toy_sha odd_toy_prime 300 (poe_transcript 4 77 (77 - 4 ^ 100 mod 77) 100) = Ret (l, t')
      /\ 1 < l /\ Z.odd l = true).
  { eexists _, _. split; [vm_compute; reflexivity|]. split; vm_compute; reflexivity. }
  destruct E as (l & t' & El & Hl & Ho).
  destruct (C37_PoE_forgery toy_sha odd_toy_prime 300 4 77 100 l t' ltac:(lia) eq_refl ltac:(lia) El Hl Ho) as [Hne [pf Hpf]].
  exists toy_sha, odd_toy_prime, 300%nat, 4, 77. eexists. exists 100, pf. split; [exact odd_toy_prime_ok|].
  split; [lia|]. split; [reflexivity|]. split; [lia|]. split; [exact Hpf|]. intros E. apply Hne. symmetry. exact E.
Qed.

(** What acceptance does mean: the proof yields an l-th root of C / base^x. So a false statement is
    accepted exactly for those C whose quotient by base^x has an l-th root the prover can name
    (the adaptive root problem), and with the honest Q only for the true C. *)
Theorem C37_PoE_soundness_partial : forall sha is_prime, test_ok is_prime ->
  forall fuel base N C x Q, 1 < N -> 0 <= base -> coprime base N -> 0 <= x ->
  PoEVerify sha is_prime fuel base N C x (Some {| poe_Q := Q |}) = Ret true ->
  exists l t', GetPrimeChallenge sha is_prime fuel (poe_transcript base N C x) = Ret (l, t') /\
    0 <= C < N /\
    (exists root, (root ^ l * base ^ x) mod N = C /\ (root * base ^ (x / l)) mod N = Q mod N) /\
    (Q mod N = base ^ (x / l) mod N -> C = base ^ x mod N).
Proof.
  intros sha is_prime Hp fuel base N C x Q HN Hb Hc Hx H. unfold PoEVerify in H.
  destruct (GetPrimeChallenge sha is_prime fuel (poe_transcript base N C x)) as [[l t']| |] eqn:El; try discriminate.
  pose proof (prime_challenge_pos sha is_prime Hp _ _ _ _ El) as Hl. exists l, t'. split; [reflexivity|].
  cbn [bind poe_Q] in H. rewrite go_mod_ret, Z.abs_eq in H by lia. cbn [bind] in H. rewrite MultiExp_up in H by lia.
  cbn [bind] in H. injection H as H. apply Z.eqb_eq in H.
  assert (Hl0 : 0 < l) by (clear -Hl; lia). assert (Hl1 : 0 <= l) by (clear -Hl; lia).
  pose proof (Z.mod_pos_bound x l Hl0) as [Hr _]. pose proof (Z.div_pos x l Hx Hl0) as Hq.
  assert (Hql : 0 <= x / l * l) by (now apply Z.mul_nonneg_nonneg).
  assert (Hsum : x / l * l + x mod l = x) by (rewrite Z.mul_comm; symmetry; apply Z.div_mod; clear -Hl; lia).
  assert (HN0 : 0 < N) by (clear -HN; lia). assert (HN1 : N <> 0) by (clear -HN; lia).
  rewrite !up_nonneg, <- Z.mul_mod in H by assumption.
  split; [rewrite <- H; now apply Z.mod_pos_bound|].
  assert (Hroot : exists root, (root ^ l * base ^ x) mod N = C /\ (root * base ^ (x / l)) mod N = Q mod N).
  { destruct (mod_inverse_some (base ^ (x / l)) N HN0) as (v & _ & Hv & Ev).
    { now apply coprime_pow. }
    exists (Q * v). assert (E2 : (Q * v * base ^ (x / l)) mod N = Q mod N).
    { rewrite <- Z.mul_assoc, (Z.mul_comm v), <- mul_mod_idem_r, Ev, mul_mod_idem_r. f_equal. ring. }
    split; [|exact E2].
    rewrite <- H. replace (base ^ x) with ((base ^ (x / l)) ^ l * base ^ (x mod l)).
    2:{ rewrite <- Z.pow_mul_r, <- Z.pow_add_r, Hsum by assumption. reflexivity. }
    rewrite Z.mul_assoc, <- Z.pow_mul_l. rewrite <- mul_mod_idem_l, <- pow_mod_idem, E2, pow_mod_idem, mul_mod_idem_l by assumption.
    reflexivity. }
  split; [exact Hroot|]. intros EQ. rewrite <- H, <- mul_mod_idem_l, <- pow_mod_idem, EQ, pow_mod_idem, mul_mod_idem_l by assumption.
  rewrite <- Z.pow_mul_r, <- Z.pow_add_r, Hsum by assumption. reflexivity.
Qed.

(** ** C38. Refuted: -1 is accepted although it is no power of the base. *)
Theorem C38_PoKE_forgery : forall sha is_prime fuel pp l t', 1 < ppN pp ->
  GetPrimeChallenge sha is_prime fuel (poke_transcript pp (ppN pp - 1)) = Ret (l, t') -> 1 < l -> Z.odd l = true ->
  exists pf, PoKEStarVerify sha is_prime fuel pp (ppN pp - 1) (Some pf) = Ret true.
Proof. intros. eexists. eapply PoKEStar_forge; try eassumption; lia. Qed.

Theorem C38_ZKPoKE_forgery : forall sha is_prime fuel pp u l t', 1 < ppN pp ->
  let t1 := snd (GetIntChallenge sha (zkpoke_transcript pp u (ppN pp - 1) 1 1 1)) in
  GetPrimeChallenge sha is_prime fuel t1 = Ret (l, t') -> 1 < l -> Z.odd l = true ->
  exists pf, ZKPoKEVerify sha is_prime fuel pp u (ppN pp - 1) (Some pf) = Ret true.
Proof. intros sha is_prime fuel pp u l t' HN t1 El Hl Ho. eexists. eapply (ZKPoKE_forge sha is_prime fuel pp u l t'); try eassumption; lia. Qed.

(** modulo 77 = 7 * 11 the powers of 4 are 1, 2, 4 modulo 7, never -1 *)
Lemma pow4_mod7 : forall k, (0 <= k) -> 4 ^ k mod 7 = 1 \/ 4 ^ k mod 7 = 4 \/ 4 ^ k mod 7 = 2.
Proof.
  apply natlike_ind; [left; reflexivity|]. intros k Hk IH. rewrite Z.pow_succ_r, Z.mul_mod by lia.
  destruct IH as [->|[->| ->]]; cbn; auto.
Qed.
Lemma minus_one_no_power : forall k, ~ is_power 77 4 k 76.
Proof.
  intros k (_ & H1 & H2). destruct (Z_le_gt_dec 0 k) as [Hk|Hk].
  - specialize (H1 Hk). apply (f_equal (fun v => v mod 7)) in H1.
    rewrite <- Znumtheory.Zmod_div_mod in H1; [|lia|lia|now exists 11]. cbv beta in H1. change (76 mod 7) with 6 in H1.
    destruct (pow4_mod7 k Hk); lia.
  - specialize (H2 ltac:(lia)). apply (f_equal (fun v => v mod 7)) in H2. cbv beta in H2.
    rewrite <- Znumtheory.Zmod_div_mod in H2; [|lia|lia|now exists 11].
    rewrite Z.mul_mod in H2 by lia. change (76 mod 7) with 6 in H2. change ((1 mod 77) mod 7) with 1 in H2.
    destruct (pow4_mod7 (- k) ltac:(lia)) as [E|[E|E]]; rewrite E in H2; cbn in H2; lia.
Qed.
Theorem C38_PoKE_membership_refuted : exists sha is_prime fuel pp C pf, test_ok is_prime /\ 1 < ppN pp /\ coprime (ppG pp) (ppN pp) /\
  PoKEStarVerify sha is_prime fuel pp C (Some pf) = Ret true /\ forall k, ~ is_power (ppN pp) (ppG pp) k C.
Proof.
  exists toy_sha, odd_toy_prime, 300%nat, {| ppN := 77; ppG := 4; ppH := 4 |}, 76, {| ps_Q := 76; ps_R := 0 |}.
  split; [exact odd_toy_prime_ok|]. split; [cbn; lia|]. split; [reflexivity|]. split; [vm_compute; reflexivity|exact minus_one_no_power].
Qed.
Theorem C38_ZKPoKE_membership_refuted : exists sha is_prime fuel pp u w pf, test_ok is_prime /\ 1 < ppN pp /\ coprime u (ppN pp) /\
  ZKPoKEVerify sha is_prime fuel pp u w (Some pf) = Ret true /\ forall k, ~ is_power (ppN pp) u k w.
Proof.
  exists toy_sha, odd_toy_prime, 300%nat, {| ppN := 77; ppG := 4; ppH := 4 |}, 4, 76.
  exists {| zk_z := 1; zk_Ag := 1; zk_Au := 1; zk_Qg := 1;
              zk_Qu := (if Z.odd (fst (GetIntChallenge toy_sha (zkpoke_transcript {| ppN := 77; ppG := 4; ppH := 4 |} 4 76 1 1 1)))
                        then 76 else 1); zk_rx := 0; zk_rrho := 0 |}.
  split; [exact odd_toy_prime_ok|]. split; [cbn; lia|]. split; [reflexivity|]. split; [vm_compute; reflexivity|exact minus_one_no_power].
Qed.

(** What acceptance does mean: C = Q^l G^R, so C is a power of G as soon as Q is; R is not bounded *)
Theorem C38_PoKE_membership_partial : forall sha is_prime, test_ok is_prime ->
  forall fuel pp C Q R, 1 < ppN pp -> 0 <= ppG pp -> coprime (ppG pp) (ppN pp) ->
  PoKEStarVerify sha is_prime fuel pp C (Some {| ps_Q := Q; ps_R := R |}) = Ret true ->
  exists l t', GetPrimeChallenge sha is_prime fuel (poke_transcript pp C) = Ret (l, t') /\ 0 <= C < ppN pp /\
    (exists GR, is_power (ppN pp) (ppG pp) R GR /\ (Q ^ l * GR) mod ppN pp = C) /\
    (forall q, is_power (ppN pp) (ppG pp) q Q -> is_power (ppN pp) (ppG pp) (q * l + R) C).
Proof.
  intros sha is_prime Hp fuel pp C Q R HN HG Hc H. unfold PoKEStarVerify in H.
  destruct (GetPrimeChallenge sha is_prime fuel (poke_transcript pp C)) as [[l t']| |] eqn:El; try discriminate.
  pose proof (prime_challenge_pos sha is_prime Hp _ _ _ _ El) as Hl. exists l, t'. split; [reflexivity|].
  cbn [bind ps_Q ps_R] in H. rewrite MultiExp_up in H by lia. cbn [bind] in H. injection H as H. apply Z.eqb_eq in H.
  split; [rewrite <- H; apply Z.mod_pos_bound; lia|]. split.
  - exists (up (ppN pp) (ppG pp) R). split.
    + apply is_power_iff; [lia|right; auto|reflexivity].
    + rewrite <- H. rewrite (up_nonneg _ Q) by lia. now rewrite mul_mod_idem_l.
  - intros q Hq. apply is_power_iff in Hq; [|lia|right; auto]. rewrite exp_recv_up in Hq.
    apply is_power_iff; [lia|right; auto|]. rewrite exp_recv_up, <- H, <- Hq.
    rewrite up_mul, up_add by (assumption || lia). reflexivity.
Qed.
Example C37_C38_partial_case : coprime 4 77 /\
  (exists pf, PoEVerify toy_sha toy_prime 300 4 77 (4 ^ 100 mod 77) 100 (Some pf) = Ret true) /\
  (exists pf, PoKEStarVerify toy_sha toy_prime 300 {| ppN := 77; ppG := 4; ppH := 9 |} 16 (Some pf) = Ret true).
Proof.
  destruct C34_case as [_ [[pf [_ H]] _]]. destruct C35_case as [[pf' [_ [H' _]]] _]. split; [reflexivity|]. split; eauto.
Qed.

(** ** C39 *)
Theorem C39_verifiers_answer : forall sha is_prime, test_ok is_prime -> forall fuel pp u w C base N x,
  0 < ppN pp -> 0 < N ->
  PoKEStarVerify sha is_prime fuel pp C None = Ret false /\
  ZKPoKEVerify sha is_prime fuel pp u w None = Ret false /\
  PoEVerify sha is_prime fuel base N C x None = Ret false /\
  (forall pf, PoKEStarVerify sha is_prime fuel pp C (Some pf) <> Panic /\
     ((exists r, GetPrimeChallenge sha is_prime fuel (poke_transcript pp C) = Ret r) ->
      exists b, PoKEStarVerify sha is_prime fuel pp C (Some pf) = Ret b)) /\
  (forall pf, ZKPoKEVerify sha is_prime fuel pp u w (Some pf) <> Panic /\
     ((exists r, GetPrimeChallenge sha is_prime fuel
         (snd (GetIntChallenge sha (zkpoke_transcript pp u w (zk_z pf) (zk_Ag pf) (zk_Au pf)))) = Ret r) ->
      exists b, ZKPoKEVerify sha is_prime fuel pp u w (Some pf) = Ret b)) /\
  (forall pf, PoEVerify sha is_prime fuel base N C x (Some pf) <> Panic /\
     ((exists r, GetPrimeChallenge sha is_prime fuel (poe_transcript base N C x) = Ret r) ->
      exists b, PoEVerify sha is_prime fuel base N C x (Some pf) = Ret b)).
Proof.
  intros sha is_prime Hp fuel pp u w C base N x HN HN2. do 3 (split; [reflexivity|]).
  split; [|split]; intros pf.
  - apply PoKEStarVerify_answers. lia.
  - apply ZKPoKEVerify_answers. lia.
  - apply PoEVerify_answers; [assumption|lia].
Qed.
(** malformed contents: negative, out of range, non-invertible with a negative exponent *)
Example C39_case :
  let pp := {| ppN := 77; ppG := 7; ppH := 9 |} in
  PoKEStarVerify toy_sha toy_prime 300 pp (-5) (Some {| ps_Q := -11; ps_R := -3 |}) = Ret false /\
  ZKPoKEVerify toy_sha toy_prime 300 pp 0 (-7) (Some {| zk_z := 0; zk_Ag := -1; zk_Au := 0; zk_Qg := 1000; zk_Qu := 0; zk_rx := -1; zk_rrho := -7 |}) = Ret true /\
  PoEVerify toy_sha toy_prime 300 (-7) 77 0 (-9) (Some {| poe_Q := 0 |}) = Ret true.
Proof. vm_compute. repeat split. Qed.

Print Assumptions C34_PoKEStar_complete.
Print Assumptions C34_nonunit_refuted.
Print Assumptions C35_PoE_complete.
Print Assumptions C36_ZKPoKE_complete.
Print Assumptions C37_PoE_forgery.
Print Assumptions C37_PoE_soundness_refuted.
Print Assumptions C37_PoE_soundness_partial.
Print Assumptions C38_PoKE_forgery.
Print Assumptions C38_ZKPoKE_forgery.
Print Assumptions C38_PoKE_membership_refuted.
Print Assumptions C38_ZKPoKE_membership_refuted.
Print Assumptions C38_PoKE_membership_partial.
Print Assumptions C39_verifiers_answer.
