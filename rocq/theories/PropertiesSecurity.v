(** Theorems for properties C68-C71: what the computed values are worth against a cheating party.
    Reductions are stated with the number they extract ([extracted_root], SecurityProofs.v). *)
From Coq Require Import ZArith Bool Lia String Znumtheory List Permutation.
From Verif Require Import GoBig GoBigFacts Spec StrFacts AccModel AccFacts AccProofs IterProofs HashModel HashProofs PropertiesHash
  FSModel FSProofs PokeModel PokeProofs PropertiesPoke SecurityProofs.
Import ListNotations.
Open Scope Z_scope.

Definition sound_test (is_prime : Z -> bool) : Prop := forall p, is_prime p = true -> prime p.

Lemma small_primes : Forall prime [2; 3; 5; 7; 11; 13].
Proof.
  repeat apply Forall_cons; [..|apply Forall_nil]; (apply prime_intro; [lia|]; intros n Hn; apply Zgcd_1_rel_prime;
    assert (n = 1 \/ n = 2 \/ n = 3 \/ n = 4 \/ n = 5 \/ n = 6 \/ n = 7 \/ n = 8 \/ n = 9 \/ n = 10 \/ n = 11 \/ n = 12) as C by lia;
    decompose [or] C; subst n; first [reflexivity | lia]).
Qed.
Lemma toy_sound : sound_test toy_prime.
Proof.
  intros p H. unfold toy_prime in H. rewrite !orb_true_iff, !Z.eqb_eq in H.
  pose proof small_primes as F. rewrite Forall_forall in F. apply F. cbn [In]. intuition.
Qed.

Lemma primes_nonneg : forall rep, Forall prime rep -> nonneg rep.
Proof. intros rep H. eapply Forall_impl; [|exact H]. cbv beta. intros p Hp. pose proof (prime_ge_2 p Hp). lia. Qed.

Section Reps.
Variable sha : string -> string.
Variable is_prime : Z -> bool.
Variable poseidon : list Z -> Z.

Lemma prime_reps : sound_test is_prime -> forall fuel set rep,
  GenRepresentatives sha is_prime poseidon fuel set HashToPrimeFromSha256 = Ret rep -> Forall prime rep.
Proof.
  intros Hp fuel set rep H. rewrite GenRep_map in H. apply map_outcome_ret in H.
  induction H as [|s r l l' Hs _ IH]; constructor; [|exact IH]. unfold rep_of in Hs.
  change (HashToPrimeFromSha256 =? DIHashFromPoseidon) with false in Hs. cbv iota in Hs. unfold HashToPrime in Hs.
  apply htp_loop_ret in Hs. destruct Hs as (n & _ & _ & E & _). now apply Hp.
Qed.
Lemma AccAndProve_prime : sound_test is_prime -> forall fuel set setup acc proofs, 0 < sN setup -> 0 <= sG setup < sN setup ->
  AccAndProve sha is_prime poseidon fuel set HashToPrimeFromSha256 setup = Ret (acc, proofs) ->
  exists rep, GenRepresentatives sha is_prime poseidon fuel set HashToPrimeFromSha256 = Ret rep /\ Forall prime rep /\
    acc = sG setup ^ product rep mod sN setup.
Proof.
  intros Hp fuel set setup acc proofs HN HG H. unfold AccAndProve in H.
  destruct (GenRepresentatives _ _ _ _ _ _) as [rep| |] eqn:E; try discriminate. cbn [bind] in H.
  exists rep. split; [reflexivity|]. pose proof (prime_reps Hp _ _ _ E) as P. split; [exact P|].
  assert (rep <> []) by (intros ->; discriminate).
  rewrite AccAndProve_rep_spec in H by (auto; now apply primes_nonneg). now injection H.
Qed.
End Reps.

(** ** C68. A witness for something that was not accumulated yields a root of the generator.
    General form: any exponent P inside the accumulator, any claimed element x. *)
Theorem C68_false_witness_root : forall N g P x w, 0 < N -> 0 <= g -> coprime g N -> 0 <= w -> 0 <= P -> 0 < x ->
  verifies N w x (g ^ P mod N) ->
  let u := extracted_root N g P x w in
  0 <= u < N /\ u ^ x mod N = g ^ Z.gcd x P mod N /\ (~ (x | P) -> 1 <= Z.gcd x P <= x / 2).
Proof.
  intros N g P x w HN Hg Hc Hw HP Hx H u. destruct (root_spec N g P x w) as [R1 R2]; auto. split; [exact R1|]. split; [exact R2|].
  intros D. pose proof (Z.gcd_nonneg x P). destruct (Z.gcd_divide_l x P) as [k Hk].
  assert (Z.gcd x P <> 0) by (intros E; rewrite E in Hk; lia). split; [lia|].
  assert (k <> 1). { intros ->. apply D. rewrite Z.mul_1_l in Hk. rewrite Hk at 1. apply Z.gcd_divide_r. }
  apply Z.div_le_lower_bound; [lia|]. assert (2 <= k) by nia. nia.
Qed.
(** 7 does not divide 30, yet 4^(30*13) is a 7th root of 4^30 modulo 77, since 4 has order 15; the
    extracted number is a 7th root of 4 *)
Example C68_case : let w := 4 ^ (30 * 13) mod 77 in
  verifies 77 w 7 (4 ^ 30 mod 77) /\ Z.gcd 7 30 = 1 /\ extracted_root 77 4 30 7 w = 53 /\ 53 ^ 7 mod 77 = 4.
Proof. vm_compute. repeat split. Qed.

(** for the accumulator computed by AccAndProve from prime representatives: a witness for a string
    whose prime differs from all accumulated ones is an x-th root of G, x prime *)
Theorem C68_nonmember_root : forall sha is_prime poseidon, sound_test is_prime ->
  forall fuel fuel' set setup acc proofs s x w,
  1 < sN setup -> 0 <= sG setup < sN setup -> coprime (sG setup) (sN setup) ->
  AccAndProve sha is_prime poseidon fuel set HashToPrimeFromSha256 setup = Ret (acc, proofs) ->
  HashToPrime sha is_prime fuel' s = Ret x ->
  (forall t, In t set -> HashToPrime sha is_prime fuel t <> Ret x) ->
  0 <= w -> verifies (sN setup) w x acc ->
  prime x /\ exists rep, GenRepresentatives sha is_prime poseidon fuel set HashToPrimeFromSha256 = Ret rep /\
    extracted_root (sN setup) (sG setup) (product rep) x w ^ x mod sN setup = sG setup.
Proof.
  intros sha is_prime poseidon Hp fuel fuel' set setup acc proofs s x w HN HG Hc HA Hs Hn Hw Hv.
  assert (Px : prime x). { apply htp_loop_ret in Hs. destruct Hs as (n & _ & _ & E & _). now apply Hp. }
  assert (HN0 : 0 < sN setup) by lia.
  split; [exact Px|]. destruct (AccAndProve_prime _ _ _ Hp _ _ _ _ _ HN0 HG HA) as (rep & E & Pr & ->).
  exists rep. split; [exact E|]. pose proof (prime_ge_2 x Px).
  destruct (root_spec (sN setup) (sG setup) (product rep) x w) as [_ R]; auto; try lia; [now apply product_nonneg, primes_nonneg|].
  enough (G : Z.gcd x (product rep) = 1) by (rewrite R, G, Z.pow_1_r; now apply Z.mod_small).
  apply prime_not_in_coprime; auto.
  - intros I. rewrite GenRep_map in E. apply map_outcome_ret in E.
    apply In_nth_error in I. destruct I as [i Hi].
    assert (exists t, nth_error set i = Some t) as [t Ht].
    { destruct (nth_error set i) eqn:En; [eauto|]. apply nth_error_None in En.
      assert (length set = length rep) by (clear -E; induction E; cbn; congruence).
      assert (nth_error rep i <> None) by congruence. apply nth_error_Some in H1. lia. }
    apply (Hn t); [eapply nth_error_In; eauto|].
    pose proof (Forall2_nth _ _ _ _ _ _ _ _ E Ht Hi) as F. cbv beta in F. exact F.
Qed.
(** "0" was not accumulated; its prime 7 is none of 5, 11, 13 *)
Example C68_nonmember_case :
  let setup := MkSetup 77 4 9 in
  exists acc proofs, AccAndProve toy_sha toy_prime toy_poseidon 300 ["1"; "2"; "3"]%string HashToPrimeFromSha256 setup = Ret (acc, proofs) /\
    HashToPrime toy_sha toy_prime 300 "0"%string = Ret 7 /\
    (forall t, In t ["1"; "2"; "3"]%string -> HashToPrime toy_sha toy_prime 300 t <> Ret 7) /\
    verifies 77 (4 ^ (715 * 13) mod 77) 7 acc /\ extracted_root 77 4 715 7 (4 ^ (715 * 13) mod 77) = 53.
Proof.
  cbv zeta. eexists _, _. split; [vm_compute; reflexivity|]. split; [vm_compute; reflexivity|]. split.
  - intros t [<-|[<-|[<-|[]]]]; vm_compute; discriminate.
  - vm_compute. split; reflexivity.
Qed.

(** ** C69. Two sets with the same accumulator value have the same primes, or their products give away
    a multiple of the order of G. *)
Theorem C69_binding : forall sha is_prime poseidon, sound_test is_prime ->
  forall fuel1 fuel2 s1 s2 setup acc proofs1 proofs2,
  1 < sN setup -> 0 <= sG setup < sN setup -> coprime (sG setup) (sN setup) ->
  AccAndProve sha is_prime poseidon fuel1 s1 HashToPrimeFromSha256 setup = Ret (acc, proofs1) ->
  AccAndProve sha is_prime poseidon fuel2 s2 HashToPrimeFromSha256 setup = Ret (acc, proofs2) ->
  exists rep1 rep2, GenRepresentatives sha is_prime poseidon fuel1 s1 HashToPrimeFromSha256 = Ret rep1 /\
    GenRepresentatives sha is_prime poseidon fuel2 s2 HashToPrimeFromSha256 = Ret rep2 /\
    (Permutation rep1 rep2 \/
     (product rep1 <> product rep2 /\ sG setup ^ Z.abs (product rep1 - product rep2) mod sN setup = 1)).
Proof.
  intros sha is_prime poseidon Hp fuel1 fuel2 s1 s2 setup acc proofs1 proofs2 HN HG Hc H1 H2.
  assert (HN0 : 0 < sN setup) by lia.
  destruct (AccAndProve_prime _ _ _ Hp _ _ _ _ _ HN0 HG H1) as (r1 & E1 & P1 & A1).
  destruct (AccAndProve_prime _ _ _ Hp _ _ _ _ _ HN0 HG H2) as (r2 & E2 & P2 & A2).
  exists r1, r2. split; [exact E1|]. split; [exact E2|].
  pose proof (product_nonneg r1 (primes_nonneg r1 P1)) as Q1. pose proof (product_nonneg r2 (primes_nonneg r2 P2)) as Q2.
  destruct (Z.eq_dec (product r1) (product r2)) as [E|E]; [left; now apply prime_factors_unique|].
  right. split; [exact E|]. rewrite A1 in A2. rewrite <- (Z.mod_small 1 (sN setup)) by lia.
  destruct (Z.lt_trichotomy (product r1) (product r2)) as [L|[L|L]]; [|contradiction|].
  - rewrite Z.abs_neq, Z.opp_sub_distr, Z.add_comm by lia. rewrite Z.add_opp_r. apply equal_powers; auto; lia.
  - rewrite Z.abs_eq by lia. apply equal_powers; auto; lia.
Qed.
(** both cases occur: reordering, and a real collision because 4 has order 15 modulo 77, which divides
    5*7 - 5 *)
Example C69_case :
  let setup := MkSetup 77 4 9 in
  let acc s := match AccAndProve toy_sha toy_prime toy_poseidon 300 s HashToPrimeFromSha256 setup with Ret (a, _) => a | _ => -1 end in
  acc ["1"; "2"]%string = acc ["2"; "1"]%string /\ acc ["1"; "0"]%string = acc ["1"]%string /\ 4 ^ (35 - 5) mod 77 = 1.
Proof. vm_compute. repeat split. Qed.

(** ** C70. The value of ZKAccumulate says (almost) nothing about the set: for two sets whose products
    are coprime to the order of G, and any value v, the numbers of randomizers in [0, 2^2047) that lead
    to v differ by at most one. *)
Definition zk_value (sha : string -> string) (is_prime : Z -> bool) (poseidon : list Z -> Z) (fuel : nat) (set : list string) (e : Z)
    (setup : Setup) (r : Z) : option Z :=
  match ZKAccumulate sha is_prime poseidon fuel r set e setup with Ret (acc, _) => Some acc | _ => None end.
Definition yields (o : option Z) (v : Z) : bool := match o with Some a => a =? v | None => false end.
Definition randomizers : nat := Z.to_nat (2 ^ 2047).

Lemma zk_value_count : forall sha is_prime poseidon fuel set e setup rep v M, 0 < sN setup -> (forall l, 0 <= poseidon l) ->
  GenRepresentatives sha is_prime poseidon fuel set e = Ret rep -> rep <> [] ->
  count (fun r => yields (zk_value sha is_prime poseidon fuel set e setup r) v) M =
  count (fun r => sG setup ^ (r * product rep) mod sN setup =? v) M.
Proof.
  intros sha is_prime poseidon fuel set e setup rep v M HN Hp E Hne. apply count_ext. intros r Hr.
  unfold zk_value, ZKAccumulate. rewrite E. cbn [bind]. rewrite ZKAccumulate_rep_spec; auto.
  eapply GenRep_nonneg; eauto.
Qed.

Theorem C70_hiding : forall sha is_prime poseidon, (forall l, 0 <= poseidon l) ->
  forall fuel1 fuel2 s1 s2 e setup rep1 rep2 k v,
  0 < sN setup -> coprime (sG setup) (sN setup) ->
  (* k is the order of G: the least positive exponent giving 1 *)
  0 < k -> sG setup ^ k mod sN setup = 1 mod sN setup ->
  (forall j, 0 < j < k -> sG setup ^ j mod sN setup <> 1 mod sN setup) ->
  GenRepresentatives sha is_prime poseidon fuel1 s1 e = Ret rep1 -> s1 <> [] -> Z.gcd (product rep1) k = 1 ->
  GenRepresentatives sha is_prime poseidon fuel2 s2 e = Ret rep2 -> s2 <> [] -> Z.gcd (product rep2) k = 1 ->
  let hits1 := count (fun r => yields (zk_value sha is_prime poseidon fuel1 s1 e setup r) v) randomizers in
  let hits2 := count (fun r => yields (zk_value sha is_prime poseidon fuel2 s2 e setup r) v) randomizers in
  (hits1 <= hits2 + 1 /\ hits2 <= hits1 + 1)%nat.
Proof.
  intros sha is_prime poseidon Hp fuel1 fuel2 s1 s2 e setup rep1 rep2 k v HN Hc Hk H1 Hmin E1 N1 C1 E2 N2 C2.
  cbv zeta.
  assert (R1 : rep1 <> []) by (intros ->; apply GenRep_length in E1; destruct s1; [now apply N1|discriminate]).
  assert (R2 : rep2 <> []) by (intros ->; apply GenRep_length in E2; destruct s2; [now apply N2|discriminate]).
  rewrite (zk_value_count sha is_prime poseidon fuel1 s1 e setup rep1 v randomizers HN Hp E1 R1).
  rewrite (zk_value_count sha is_prime poseidon fuel2 s2 e setup rep2 v randomizers HN Hp E2 R2).
  pose proof (product_nonneg _ (GenRep_nonneg _ _ _ _ _ _ _ Hp E1)) as P1.
  pose proof (product_nonneg _ (GenRep_nonneg _ _ _ _ _ _ _ Hp E2)) as P2.
  assert (Ho : is_order (sN setup) (sG setup) k) by (split; [exact Hk|split; assumption]).
  split; apply (count_close (sN setup) (sG setup) k); assumption.
Qed.
(** hypotheses met by two different sets, 4 having order 15 modulo 77 *)
Example C70_case :
  GenRepresentatives toy_sha toy_prime toy_poseidon 300 ["0"]%string HashToPrimeFromSha256 = Ret [7] /\
  GenRepresentatives toy_sha toy_prime toy_poseidon 300 ["2"; "3"]%string HashToPrimeFromSha256 = Ret [11; 13] /\
  4 ^ 15 mod 77 = 1 mod 77 /\ (forall j, 0 < j < 15 -> 4 ^ j mod 77 <> 1 mod 77) /\
  Z.gcd (product [7]) 15 = 1 /\ Z.gcd (product [11; 13]) 15 = 1 /\
  (* with 17 randomizers 4^7 is hit twice for the first set, once for the second *)
  count (fun r => yields (zk_value toy_sha toy_prime toy_poseidon 300 ["0"]%string 6 (MkSetup 77 4 9) r) (4 ^ 7 mod 77)) 17 = 2%nat /\
  count (fun r => yields (zk_value toy_sha toy_prime toy_poseidon 300 ["2"; "3"]%string 6 (MkSetup 77 4 9) r) (4 ^ 7 mod 77)) 17 = 1%nat.
Proof.
  split; [vm_compute; reflexivity|]. split; [vm_compute; reflexivity|]. split; [reflexivity|]. split.
  - intros j Hj. assert (j = 1 \/ j = 2 \/ j = 3 \/ j = 4 \/ j = 5 \/ j = 6 \/ j = 7 \/ j = 8 \/ j = 9 \/ j = 10 \/ j = 11 \/ j = 12 \/ j = 13 \/ j = 14) as C by lia.
    decompose [or] C; subst j; vm_compute; discriminate.
  - split; [reflexivity|]. split; [reflexivity|]. vm_compute. split; reflexivity.
Qed.

(** ** C71. Accepted PoKE* proofs do not have a reduced remainder: refuted for every hash and primality
    test, and every true statement. *)
Theorem C71_unreduced_accepted : forall sha is_prime, test_ok is_prime ->
  forall fuel pp x l t', 1 < ppN pp -> 0 <= ppG pp -> coprime (ppG pp) (ppN pp) -> 0 <= x ->
  let C := ppG pp ^ x mod ppN pp in
  GetPrimeChallenge sha is_prime fuel (poke_transcript pp C) = Ret (l, t') ->
  (* the exponent itself is accepted as remainder *)
  PoKEStarVerify sha is_prime fuel pp C (Some {| ps_Q := 1; ps_R := x |}) = Ret true /\
  (* every multiple of the challenge can be moved between quotient and remainder of an accepted proof *)
  (forall Q R k, 0 <= Q -> coprime Q (ppN pp) -> PoKEStarVerify sha is_prime fuel pp C (Some {| ps_Q := Q; ps_R := R |}) = Ret true ->
     PoKEStarVerify sha is_prime fuel pp C (Some {| ps_Q := (Q * up (ppN pp) (ppG pp) k) mod ppN pp; ps_R := R - k * l |}) = Ret true).
Proof.
  intros sha is_prime Hp fuel pp x l t' HN HG Hc Hx C El.
  pose proof (prime_challenge_pos sha is_prime Hp _ _ _ _ El) as Hl.
  unfold PoKEStarVerify. rewrite El. cbn [bind ps_Q ps_R]. split.
  - rewrite MultiExp_up by lia. cbn [bind]. rewrite !up_nonneg, Z.pow_1_l by lia.
    rewrite mul_mod_idem_l, mul_mod_idem_r, Z.mul_1_l. fold C. now rewrite Z.eqb_refl.
  - intros Q R k HQ HcQ. rewrite !MultiExp_up by lia. cbn [bind]. intros E. injection E as E. apply Z.eqb_eq in E.
    pose proof (up_range (ppN pp) (ppG pp) k ltac:(lia) HG Hc). pose proof (up_unit (ppN pp) (ppG pp) k ltac:(lia) HG Hc).
    rewrite up_mul_base by (auto; lia). rewrite up_mul by (auto; lia).
    rewrite mul_mod_idem_l. rewrite <- Z.mul_assoc, <- mul_mod_idem_r, up_add by (auto; lia).
    replace (k * l + (R - k * l)) with R by ring. rewrite E. now rewrite Z.eqb_refl.
Qed.
Theorem C71_reduced_remainder_refuted : exists sha is_prime fuel pp C R l t',
  test_ok is_prime /\ 1 < ppN pp /\ 0 <= ppG pp /\ coprime (ppG pp) (ppN pp) /\
  GetPrimeChallenge sha is_prime fuel (poke_transcript pp C) = Ret (l, t') /\ ~ (0 <= R < l) /\
  PoKEStarVerify sha is_prime fuel pp C (Some {| ps_Q := 1; ps_R := R |}) = Ret true.
Proof.
  exists toy_sha, toy_prime, 300%nat, {| ppN := 77; ppG := 4; ppH := 9 |}, (4 ^ 100 mod 77), 100.
  destruct (GetPrimeChallenge toy_sha toy_prime 300 (poke_transcript {| ppN := 77; ppG := 4; ppH := 9 |} (4 ^ 100 mod 77))) as [[l t']| |] eqn:E;
    [|vm_compute in E; discriminate E..].
  exists l, t'. split; [exact toy_prime_ok|]. cbn [ppN ppG]. split; [lia|]. split; [lia|]. split; [reflexivity|]. split; [reflexivity|]. split.
  - vm_compute in E. injection E as <- _. lia.
  - exact (proj1 (C71_unreduced_accepted toy_sha toy_prime toy_prime_ok 300 {| ppN := 77; ppG := 4; ppH := 9 |} 100 l t' ltac:(cbn; lia) ltac:(cbn; lia) eq_refl ltac:(lia) E)).
Qed.
Example C71_case : let pp := {| ppN := 77; ppG := 4; ppH := 9 |} in
  exists l t', GetPrimeChallenge toy_sha toy_prime 300 (poke_transcript pp (4 ^ 100 mod 77)) = Ret (l, t') /\ l < 100 /\
    PoKEStarVerify toy_sha toy_prime 300 pp (4 ^ 100 mod 77) (Some {| ps_Q := 1; ps_R := 100 |}) = Ret true /\
    PoKEStarVerify toy_sha toy_prime 300 pp (4 ^ 100 mod 77) (Some {| ps_Q := 4; ps_R := 100 - l |}) = Ret true.
Proof. cbv zeta. eexists _, _. split; [vm_compute; reflexivity|]. vm_compute. repeat split. Qed.

(** the honest prover's remainder is reduced, and its quotient is the power of G that goes with it *)
Theorem C71_reduced_remainder_partial : forall sha is_prime, test_ok is_prime ->
  forall fuel pp C x pf, 0 < ppN pp -> 0 <= ppG pp -> 0 <= x \/ coprime (ppG pp) (ppN pp) ->
  PoKEStarProve sha is_prime fuel pp C x = Ret (Some pf) ->
  exists l t', GetPrimeChallenge sha is_prime fuel (poke_transcript pp C) = Ret (l, t') /\
    0 <= ps_R pf < l /\ ps_R pf = x mod l /\ is_power (ppN pp) (ppG pp) (x / l) (ps_Q pf).
Proof.
  intros sha is_prime Hp fuel pp C x pf HN HG Hx H. unfold PoKEStarProve in H.
  destruct (negb _); [discriminate|].
  destruct (GetPrimeChallenge sha is_prime fuel (poke_transcript pp C)) as [[l t']| |] eqn:El; try discriminate.
  pose proof (prime_challenge_pos sha is_prime Hp _ _ _ _ El) as Hl. cbn [bind] in H.
  rewrite div_mod_pos in H by lia. cbn [bind] in H. injection H as <-. cbn [ps_Q ps_R].
  exists l, t'. split; [reflexivity|]. split; [apply Z.mod_pos_bound; lia|]. split; [reflexivity|].
  apply is_power_iff; auto. destruct Hx as [Hx|Hx]; [left|now right]. apply Z.div_pos; lia.
Qed.

Print Assumptions C68_false_witness_root. Print Assumptions C68_nonmember_root. Print Assumptions C69_binding.
Print Assumptions C70_hiding. Print Assumptions C71_unreduced_accepted. Print Assumptions C71_reduced_remainder_refuted. Print Assumptions C71_reduced_remainder_partial.
