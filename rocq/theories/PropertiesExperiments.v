(** Theorems for properties C72-C76 (experiments/finaltests.go, integers.go). *)
From Coq Require Import ZArith Bool Lia String List.
From Verif Require Import GoBig GoBigFacts Spec StrFacts AccModel AccFacts AccProofs IterProofs HashModel HashProofs PropertiesHash
  FSModel FSProofs ForkJoin ParModel ParProofs PropertiesAcc CircuitModel CircuitProofs PropertiesCircuit PokeModel PokeProofs PropertiesPoke ExperimentModel.
Import ListNotations.
Open Scope Z_scope.

Definition positive_test (is_prime : Z -> bool) : Prop := forall p, is_prime p = true -> 0 < p.

Lemma htp_pos : forall sha is_prime fuel s v, positive_test is_prime -> HashToPrime sha is_prime fuel s = Ret v -> 0 < v.
Proof. intros sha is_prime fuel s v Hp H. apply htp_loop_ret in H. destruct H as (n & _ & _ & E & _). now apply Hp. Qed.

(** Q^l * b^r for quotient and remainder of e is b^e *)
Lemma poke_identity : forall b e l N, 0 < N -> 0 <= e -> 0 < l ->
  (AccumulateNew (AccumulateNew b (e / l) N) l N * AccumulateNew b (e mod l) N) mod N = b ^ e mod N.
Proof.
  intros b e l N HN He Hl. pose proof (Z.mod_pos_bound e l Hl). pose proof (Z.div_pos e l He Hl).
  rewrite !AccumulateNew_spec by lia. rewrite pow_mod_idem, mul_mod_idem_l, mul_mod_idem_r by lia.
  rewrite <- Z.pow_mul_r, <- Z.pow_add_r by nia. f_equal. f_equal. rewrite (Z.div_mod e l) at 3 by lia. ring.
Qed.

(** ** C72 *)
Theorem C72_TestPoKE : forall sha is_prime poseidon, positive_test is_prime -> (forall l, 0 <= poseidon l) ->
  forall fuel setup num, 0 < sN setup -> 0 <= num ->
  TestPoKE_round sha is_prime poseidon fuel setup num <> Panic /\
  forall p, TestPoKE_round sha is_prime poseidon fuel setup num = Ret p ->
    exists rep, GenRepresentatives sha is_prime poseidon fuel (map (fun i => dec (Z.of_nat i)) (seq 0 (Z.to_nat num))) HashToPrimeFromSha256 = Ret rep /\
      (* what is printed last is the accumulator of the set *)
      pk_prod p = sG setup ^ product rep mod sN setup /\ pk_acc p = pk_prod p /\
      (* the challenge is the hash of the two public values, base and accumulator *)
      HashToPrime sha is_prime fuel (dec (sG setup) ++ dec (pk_acc p))%string = Ret (pk_l p) /\
      (* and the other printed values are its parts *)
      pk_Q p = sG setup ^ (product rep / pk_l p) mod sN setup /\ pk_Ql p = pk_Q p ^ pk_l p mod sN setup /\
      0 <= pk_r p < pk_l p /\ pk_gr p = sG setup ^ pk_r p mod sN setup /\
      product rep = product rep / pk_l p * pk_l p + pk_r p.
Proof.
  intros sha is_prime poseidon Hp Hpos fuel setup num HN Hnum. unfold TestPoKE_round, GenBenchSet.
  destruct (Z.ltb_spec num 0); [lia|]. cbn [bind].
  destruct (GenRepresentatives _ _ _ _ _ _) as [rep| |] eqn:E; cbn [bind].
  - assert (P : 0 <= product rep) by (apply product_nonneg; eapply GenRep_nonneg; eauto).
    rewrite SetProductRecursiveFast_spec. cbn [bind]. rewrite (AccumulateNew_spec (sG setup) (product rep)) by assumption.
    destruct (HashToPrime _ _ _ _) as [l| |] eqn:El; cbn [bind]; [|exfalso; eapply htp_loop_no_panic; exact El|split; discriminate].
    pose proof El as El'. apply htp_pos in El; [|assumption]. rewrite div_mod_pos by lia. cbn [bind].
    rewrite go_mod_ret by lia. rewrite Z.abs_eq by lia. cbn [bind]. rewrite poke_identity by assumption.
    split; [discriminate|]. intros p [= <-]. cbn [pk_acc pk_Q pk_l pk_Ql pk_r pk_gr pk_prod]. exists rep.
    pose proof (Z.mod_pos_bound (product rep) l El). pose proof (Z.div_pos (product rep) l P El).
    split; [reflexivity|]. split; [reflexivity|]. split; [reflexivity|]. split; [exact El'|]. rewrite !AccumulateNew_spec by lia.
    split; [reflexivity|]. split; [reflexivity|]. split; [assumption|]. split; [reflexivity|].
    rewrite (Z.div_mod (product rep) l) at 1 by lia. ring.
  - exfalso. rewrite GenRep_map in E. clear -E.
    induction (map _ (seq 0 (Z.to_nat num))) as [|s l IH]; [discriminate|]. cbn [map_outcome] in E.
    destruct (rep_of _ _ _ fuel HashToPrimeFromSha256 s) as [v| |] eqn:F; cbn [bind] in E; [|eapply htp_loop_no_panic; exact F|discriminate].
    destruct (map_outcome _ l); cbn [bind] in E; try discriminate. now apply IH.
  - split; discriminate.
Qed.
Example C72_case : exists p, TestPoKE_round toy_sha toy_prime toy_poseidon 300 (MkSetup 77 4 9) 2 = Ret p /\
  pk_prod p = 4 ^ (7 * 5) mod 77 /\ pk_l p = 3 /\ pk_Q p = 4 ^ 11 mod 77 /\ pk_r p = 2.
Proof. eexists. split; [vm_compute; reflexivity|]. vm_compute. repeat split. Qed.

(** What the PoKE of the Notus experiments computes: the challenge is the hash of the new accumulator and
    the base, and the value it throws away is the one that satisfies the equation of a verifier. *)
Theorem C73_PoKE : forall sha is_prime, positive_test is_prime -> forall fuel base exp newAcc N, 0 < N -> 0 <= exp ->
  PoKE sha is_prime fuel base exp newAcc N <> Panic /\
  forall Q l r, PoKE sha is_prime fuel base exp newAcc N = Ret (Q, l, r) ->
    HashToPrime sha is_prime fuel (big_bytes newAcc ++ big_bytes base)%string = Ret l /\
    0 <= r < l /\ r = exp mod l /\ (Q ^ l * base ^ r) mod N = base ^ exp mod N.
Proof.
  intros sha is_prime Hp fuel base exp newAcc N HN He. unfold PoKE.
  destruct (HashToPrime _ _ _ _) as [l| |] eqn:El; cbn [bind]; [|exfalso; eapply htp_loop_no_panic; exact El|split; discriminate].
  pose proof El as El'. apply htp_pos in El; [|assumption]. rewrite div_mod_pos by lia. cbn [bind].
  split; [discriminate|]. intros Q l' r [= <- <- <-]. split; [reflexivity|].
  pose proof (Z.mod_pos_bound exp l El). pose proof (Z.div_pos exp l He El). split; [assumption|]. split; [reflexivity|].
  pose proof (poke_identity base exp l N HN He El) as I. rewrite !AccumulateNew_spec in I by lia.
  rewrite mul_mod_idem_l, mul_mod_idem_r in I by lia. rewrite <- I. rewrite AccumulateNew_spec by lia. reflexivity.
Qed.
Example C73_PoKE_case : PoKE toy_sha toy_prime 300 4 38 9 77 = Ret (4 ^ 7 mod 77, 5, 3).
Proof. vm_compute. reflexivity. Qed.

(** ** The Notus update experiments *)
(** the entries taken out and put in, for the users 1, 3, 5, ... *)
Definition old_entries (poseidon : list Z -> Z) (n : Z) : list Z :=
  map (fun j => poseidon [j; j; 10; j] + 2 ^ 1023) (test_ids (Z.to_nat n)).
Definition new_entries (poseidon : list Z -> Z) (n : Z) : list Z :=
  map (fun j => poseidon [j; j; 1000000; poseidon [j; j; 10; j]] + 2 ^ 1023) (test_ids (Z.to_nat n)).

Lemma notus_js : forall n, Z.of_nat n <= 2 ^ 31 -> map (fun i => u32 (u32 (Z.of_nat i * 2) + 1)) (seq 0 n) = test_ids n.
Proof.
  intros n Hn. apply map_ext_in. intros i Hi. apply in_seq in Hi. assert (P : 2 ^ 32 = 2 * 2 ^ 31) by reflexivity.
  unfold u32. rewrite P. rewrite (Z.mod_small (Z.of_nat i * 2)) by lia. rewrite Z.mod_small by lia. ring.
Qed.
Lemma notus_pairs_spec : forall poseidon n, Z.of_nat n <= 2 ^ 31 ->
  notus_pairs poseidon (test_ids n) =
  Ret (map (fun j => (poseidon [j; j; 10; j] + Min1024, poseidon [j; j; 1000000; poseidon [j; j; 10; j]] + Min1024)) (test_ids n)).
Proof.
  intros poseidon n Hn. unfold notus_pairs.
  apply map_outcome_Ret. intros j Hj. unfold test_ids in Hj. apply in_map_iff in Hj. destruct Hj as (i & <- & Hi). apply in_seq in Hi.
  unfold ElementFromString. rewrite set_string10_dec. cbn [bind]. unfold PoseidonAndDIHash, DIHashPoseidon, ElementFromUint32.
  assert (F : 2 ^ 32 < fr_modulus) by reflexivity. assert (P : 2 ^ 32 = 2 * 2 ^ 31) by reflexivity.
  rewrite (Z.mod_small (2 * Z.of_nat i + 1)) by lia. reflexivity.
Qed.
Lemma ran_prod_spec : forall poseidon r p, 0 <= r < fr_modulus -> ran_prod poseidon r p = p * randomizers poseidon r.
Proof.
  intros poseidon r p Hr. unfold ran_prod. rewrite fold_left_mul_map. f_equal. unfold randomizers, prod_upto. f_equal.
  unfold ElementFromBigInt. rewrite Z.mod_small by assumption. reflexivity.
Qed.

Ltac binv H := match type of H with
  | bind ?e _ = Ret _ => destruct e eqn:?; cbn [bind] in H; [|discriminate H..]
  end.

(** what every successful run computed *)
Lemma Notus_ret : forall sha is_prime poseidon products prover fuel setup n k r,
  positive_test is_prime -> (forall l, 0 <= poseidon l) -> 0 < sN setup -> 2 <= k -> k <= n -> n < 2 ^ 31 ->
  Notus sha is_prime poseidon products prover fuel setup n k = Ret r ->
  exists p1 p2 l1 l2 t,
    products (old_entries poseidon k) (new_entries poseidon k) = Ret (p1, p2) /\
    nt_removeSet r = old_entries poseidon k /\ nt_insertSet r = new_entries poseidon k /\
    nt_removedRan r = randomizers poseidon 200 /\ nt_insertedRan r = randomizers poseidon 300 /\
    nt_prod1 r = p1 * randomizers poseidon 200 /\ nt_prod2 r = p2 * randomizers poseidon 300 /\
    GenRepresentatives sha is_prime poseidon fuel (map (fun i => dec (Z.of_nat i)) (seq 0 (Z.to_nat (n - k)))) DIHashFromPoseidon = Ret (nt_unchanged r) /\
    nt_newSet r = nt_unchanged r ++ new_entries poseidon k /\
    prover (sG setup) (randomizers poseidon 300) (sN setup) (nt_newSet r) = Ret (nt_proofs r) /\
    nt_accMid r = sG setup ^ (product (nt_unchanged r ++ old_entries poseidon k) * randomizers poseidon 200) mod sN setup /\
    nt_accOri r = nt_accMid r /\
    nt_accOld r = exp_recv 0 (nt_accMid r) (nt_prod1 r) (sN setup) /\ nt_accNew r = exp_recv 0 (nt_accMid r) (nt_prod2 r) (sN setup) /\
    (exists l, 0 < l /\ nt_pokeQ r = nt_accMid r ^ (randomizers poseidon 200 / l) mod sN setup) /\
    GetChallengeAndAppend sha is_prime fuel (SetupTranscript setup 0 0 0 1000000) = Ret (l1, t) /\
    (exists t', GetChallengeAndAppend sha is_prime fuel t = Ret (l2, t')) /\ 0 < l1 /\ 0 < l2 /\
    u_L1 (nt_ret r) = l1 /\ u_L2 (nt_ret r) = l2 /\ u_R1 (nt_ret r) = nt_prod1 r mod l1 /\ u_R2 (nt_ret r) = nt_prod2 r mod l2 /\
    nt_ret r = {| u_L1 := l1; u_L2 := l2; u_R1 := u_R1 (nt_ret r); u_R2 := u_R2 (nt_ret r); u_Epoch := 1000000; u_D1 := 2 ^ 1023 mod l1; u_D2 := 2 ^ 1023 mod l2;
                u_Rand1 := 200; u_Rand2 := 300; u_OSum := 10000; u_USum := 10000;
                u_ID := test_ids (Z.to_nat k); u_OB := test_ids (Z.to_nat k); u_OH := test_ids (Z.to_nat k);
                u_OE := map (fun _ => 10) (test_ids (Z.to_nat k)); u_UB := test_ids (Z.to_nat k) |}.
Proof.
  intros sha is_prime poseidon products prover fuel setup n k r Hp Hpos HN H2 Hk Hn H. unfold Notus in H.
  rewrite notus_js in H by lia. cbv zeta in H. rewrite notus_pairs_spec in H by lia. cbn [bind] in H. rewrite !map_map in H. cbn [fst snd] in H.
  assert (F : 300 < fr_modulus) by reflexivity.
  rewrite !ran_prod_spec in H by lia. rewrite !Z.mul_1_l in H.
  assert (RN : forall x, 0 <= randomizers poseidon x).
  { intros x. unfold randomizers, prod_upto. apply product_nonneg. rewrite Forall_map, Forall_forall. intros; apply Hpos. }
  replace (map (fun j => poseidon [j; j; 10; j] + Min1024) (test_ids (Z.to_nat k))) with (old_entries poseidon k) in H
    by (unfold old_entries; now rewrite Min1024_val).
  replace (map (fun j => poseidon [j; j; 1000000; poseidon [j; j; 10; j]] + Min1024) (test_ids (Z.to_nat k))) with (new_entries poseidon k) in H
    by (unfold new_entries; now rewrite Min1024_val).
  destruct (products _ _) as [[p1 p2]| |] eqn:EP; cbn [bind] in H; try discriminate H.
  rewrite !ran_prod_spec in H by lia.
  unfold GenBenchSet in H at 1. unfold u32 in H. change (2 ^ 32) with 4294967296 in H. change (2 ^ 31) with 2147483648 in Hn.
  rewrite (Z.mod_small (n - k)) in H by lia. destruct (Z.ltb_spec (n - k) 0); [lia|]. cbn [bind] in H.
  destruct (GenRepresentatives _ _ _ _ _ _) as [un| |] eqn:EU; cbn [bind] in H; try discriminate H.
  destruct (prover _ _ _ _) as [proofs| |] eqn:EV; cbn [bind] in H; try discriminate H.
  rewrite SetProductRecursiveFast_spec in H. cbn [bind] in H.
  assert (PN : 0 <= product (un ++ old_entries poseidon k)).
  { apply product_nonneg, Forall_app. split; [eapply GenRep_nonneg; eauto|]. unfold old_entries. rewrite Forall_map, Forall_forall.
    intros j _. specialize (Hpos [j; j; 10; j]). assert (0 <= 2 ^ 1023) by (apply Z.pow_nonneg; lia). lia. }
  rewrite (exp_recv_nonneg 0 (sG setup)) in H by (try assumption; apply Z.mul_nonneg_nonneg; auto).
  set (mid := sG setup ^ _ mod sN setup) in *.
  unfold PoKE in H. destruct (HashToPrime _ _ _ _) as [l| |] eqn:EL; cbn [bind] in H; try discriminate H.
  apply htp_pos in EL; [|assumption]. rewrite div_mod_pos in H by (auto; lia). cbn [bind] in H.
  rewrite AccumulateNew_spec in H by (try assumption; apply Z.div_pos; auto).
  change (SetupTranscript setup _ _ _ testEpoch) with (SetupTranscript setup 0 0 0 1000000) in H.
  destruct (GetChallengeAndAppend sha is_prime fuel (SetupTranscript setup 0 0 0 1000000)) as [[l1 t]| |] eqn:C1; cbn [bind] in H; try discriminate H.
  destruct (GetChallengeAndAppend sha is_prime fuel t) as [[l2 t']| |] eqn:C2; cbn [bind] in H; try discriminate H.
  assert (L1 : 0 < l1 /\ 0 < l2).
  { unfold GetChallengeAndAppend, GetPrimeChallenge in C1, C2.
    destruct (FS_HashToPrime sha is_prime fuel (info (SetupTranscript setup 0 0 0 1000000)) _) as [v1| |] eqn:D1; cbn [bind] in C1; try discriminate C1.
    destruct (FS_HashToPrime sha is_prime fuel (info t) _) as [v2| |] eqn:D2; cbn [bind] in C2; try discriminate C2.
    apply fs_prime_ret in D1. apply fs_prime_ret in D2. destruct D1 as [D1 _], D2 as [D2 _].
    injection C1 as <- _. injection C2 as <- _. split; now apply Hp. }
  destruct L1 as [L1 L2]. rewrite !go_mod_ret in H by lia. rewrite !Z.abs_eq in H by lia. cbn [bind] in H.
  destruct (IsValid _); cbn [negb] in H; [|discriminate H]. injection H as <-.
  exists p1, p2, l1, l2, t. cbn [nt_removeSet nt_insertSet nt_unchanged nt_prod1 nt_prod2 nt_removedRan nt_insertedRan nt_newSet nt_proofs nt_accOri nt_accMid nt_accOld nt_accNew nt_pokeQ nt_ret u_L1 u_L2 u_R1 u_R2].
  repeat match goal with |- _ /\ _ => split end; try reflexivity; try assumption.
  - exists l. split; [assumption|reflexivity].
  - now exists t'.
Qed.

Lemma old_nonneg : forall poseidon n, (forall l, 0 <= poseidon l) -> Forall (fun x => 0 <= x) (old_entries poseidon n).
Proof.
  intros poseidon n H. unfold old_entries. rewrite Forall_map, Forall_forall. intros j _. specialize (H [j; j; 10; j]).
  assert (0 <= 2 ^ 1023) by (apply Z.pow_nonneg; lia). lia.
Qed.
Lemma new_nonneg : forall poseidon n, (forall l, 0 <= poseidon l) -> Forall (fun x => 0 <= x) (new_entries poseidon n).
Proof.
  intros poseidon n H. unfold new_entries. rewrite Forall_map, Forall_forall. intros j _. specialize (H [j; j; 1000000; poseidon [j; j; 10; j]]).
  assert (0 <= 2 ^ 1023) by (apply Z.pow_nonneg; lia). lia.
Qed.
Lemma randomizers_nonneg : forall poseidon x, (forall l, 0 <= poseidon l) -> 0 <= randomizers poseidon x.
Proof. intros poseidon x H. unfold randomizers, prod_upto. apply product_nonneg. rewrite Forall_map, Forall_forall. intros; apply H. Qed.
Lemma new_length : forall poseidon n, length (new_entries poseidon n) = Z.to_nat n.
Proof. intros. unfold new_entries. now rewrite map_length, test_ids_len. Qed.
Lemma unchanged_length : forall sha is_prime poseidon fuel m enc un,
  GenRepresentatives sha is_prime poseidon fuel (map (fun i => dec (Z.of_nat i)) (seq 0 m)) enc = Ret un -> length un = m.
Proof. intros. apply GenRep_length in H. now rewrite H, map_length, seq_length. Qed.
Lemma test_R1 : forall poseidon k l1 l2,
  (product (old_entries poseidon k) * randomizers poseidon 200) mod l1 = RemainderR1 (test_circuit poseidon (Z.to_nat k) l1 l2).
Proof.
  intros. unfold test_circuit, honest_R1. cbn [RemainderR1 ChallengeL1 Randomizer1]. f_equal. f_equal.
  change (users _) with (length (test_ids (Z.to_nat k))). rewrite test_ids_len. unfold old_entries, prod_upto, test_ids. rewrite map_map.
  f_equal. apply map_ext_in. intros i Hi. apply in_seq in Hi. fold (test_ids (Z.to_nat k)). unfold old_leaf.
  cbn [UserID OriginalBalances OriginalHashes OriginalUpdEpoch]. rewrite test_ids_nth, const_nth by (rewrite ?test_ids_len; lia). apply Z.add_comm.
Qed.
Lemma test_R2 : forall poseidon k l1 l2,
  (product (new_entries poseidon k) * randomizers poseidon 300) mod l2 = RemainderR2 (test_circuit poseidon (Z.to_nat k) l1 l2).
Proof.
  intros. unfold test_circuit, honest_R2. cbn [RemainderR2 ChallengeL2 Randomizer2]. f_equal. f_equal.
  change (users _) with (length (test_ids (Z.to_nat k))). rewrite test_ids_len. unfold new_entries, prod_upto, test_ids. rewrite map_map.
  f_equal. apply map_ext_in. intros i Hi. apply in_seq in Hi. fold (test_ids (Z.to_nat k)). unfold new_leaf, old_leaf.
  cbn [UserID OriginalBalances OriginalHashes OriginalUpdEpoch UpdatedBalances CurrentEpochNum]. rewrite test_ids_nth, const_nth by (rewrite ?test_ids_len; lia). apply Z.add_comm.
Qed.

(** ** C73 *)
Theorem C73_notus_multiswap_partial : forall sha is_prime poseidon, positive_test is_prime -> (forall l, 0 <= poseidon l) ->
  forall fuel setup n k r, 0 < sN setup -> 2 <= k -> k <= n -> 4 <= n < 2 ^ 31 ->
  TestNotusMultiSwap sha is_prime poseidon fuel setup n k = Ret r ->
  (* the accumulators before and after are the middle one with the old, respectively new, entries and randomizers *)
  nt_accOld r = nt_accMid r ^ (product (old_entries poseidon k) * randomizers poseidon 200) mod sN setup /\
  nt_accNew r = nt_accMid r ^ (product (new_entries poseidon k) * randomizers poseidon 300) mod sN setup /\
  (* the update set handed to the circuit is the one GenTestSet returns, whatever middle exponent that is given *)
  (forall m, GenTestSet poseidon sha is_prime fuel (Z.to_nat k) setup m = Ret (nt_ret r)) /\
  (* the precomputed membership proofs are the witnesses of the new randomised set *)
  (exists un, GenRepresentatives sha is_prime poseidon fuel (map (fun i => dec (Z.of_nat i)) (seq 0 (Z.to_nat (n - k)))) DIHashFromPoseidon = Ret un /\
    length (nt_proofs r) = Z.to_nat n /\
    forall i w x, nth_error (nt_proofs r) i = Some w -> nth_error (un ++ new_entries poseidon k) i = Some x ->
      verifies (sN setup) w x (sG setup ^ (randomizers poseidon 300 * product (un ++ new_entries poseidon k)) mod sN setup)).
Proof.
  intros sha is_prime poseidon Hp Hpos fuel setup n k r HN H2 Hk Hn H.
  destruct (Notus_ret _ _ _ _ _ _ _ _ _ _ Hp Hpos HN H2 Hk (proj2 Hn) H) as
    (p1 & p2 & l1 & l2 & t & EP & E1 & E2 & E3 & E4 & E5 & E6 & EU & ES & EV & EM & EO & EA & EB & _ & C1 & [t' C2] & L1 & L2 & U1 & U2 & U3 & U4 & UR).
  rewrite !SetProductRecursiveFast_spec in EP. cbn [bind] in EP. injection EP as <- <-.
  pose proof (product_nonneg _ (old_nonneg poseidon k Hpos)). pose proof (product_nonneg _ (new_nonneg poseidon k Hpos)).
  pose proof (randomizers_nonneg poseidon 200 Hpos). pose proof (randomizers_nonneg poseidon 300 Hpos).
  rewrite EA, EB, E5, E6. rewrite !exp_recv_nonneg by (try assumption; now apply Z.mul_nonneg_nonneg).
  split; [reflexivity|]. split; [reflexivity|]. split.
  - intros m. rewrite GenTestSet_spec; [|lia|lia|exact Hp]. rewrite C1. cbn [bind]. rewrite C2. cbn [bind]. cbv zeta. apply f_equal. rewrite UR, U3, U4, E5, E6.
    rewrite (test_R1 poseidon k l1 l2), (test_R2 poseidon k l1 l2). reflexivity.
  - exists (nt_unchanged r). split; [exact EU|]. rewrite ES in EV. pose proof (unchanged_length _ _ _ _ _ _ _ EU) as UL.
    assert (LN : length (nt_unchanged r ++ new_entries poseidon k) = Z.to_nat n) by (rewrite app_length, new_length, UL; lia).
    apply Randomizer_witnesses in EV; [|assumption|assumption|apply Forall_app; split; [eapply GenRep_nonneg; eauto|now apply new_nonneg]|lia].
    destruct EV as (V1 & _ & V3). split; [now rewrite V1|]. intros i w x Hw Hx. exact (V3 i w x Hw Hx).
Qed.
(** no step of the experiment panics *)
Theorem C73_no_panic : forall sha is_prime poseidon, positive_test is_prime -> (forall l, 0 <= poseidon l) ->
  forall fuel setup n k, 0 < sN setup -> 2 <= k -> k <= n -> 4 <= n < 2 ^ 31 ->
  TestNotusMultiSwap sha is_prime poseidon fuel setup n k <> Panic.
Proof.
  intros sha is_prime poseidon Hp Hpos fuel setup n k HN H2 Hk Hn. unfold TestNotusMultiSwap, Notus.
  rewrite notus_js by lia. cbv zeta. rewrite notus_pairs_spec by lia. cbn [bind]. rewrite !SetProductRecursiveFast_spec. cbn [bind].
  assert (F : 300 < fr_modulus) by reflexivity. rewrite !ran_prod_spec by lia.
  rewrite !map_map. cbn [fst snd].
  replace (map (fun j => poseidon [j; j; 10; j] + Min1024) (test_ids (Z.to_nat k))) with (old_entries poseidon k)
    by (unfold old_entries; now rewrite Min1024_val).
  replace (map (fun j => poseidon [j; j; 1000000; poseidon [j; j; 10; j]] + Min1024) (test_ids (Z.to_nat k))) with (new_entries poseidon k)
    by (unfold new_entries; now rewrite Min1024_val).
  unfold GenBenchSet at 1. unfold u32. change (2 ^ 32) with 4294967296. change (2 ^ 31) with 2147483648 in Hn.
  rewrite (Z.mod_small (n - k)) by lia. destruct (Z.ltb_spec (n - k) 0); [lia|]. cbn [bind].
  assert (EU : exists un, GenRepresentatives sha is_prime poseidon fuel (map (fun i => dec (Z.of_nat i)) (seq 0 (Z.to_nat (n - k)))) DIHashFromPoseidon = Ret un).
  { eexists. rewrite GenRep_map.
    apply map_outcome_Ret with (g := fun s => match ElementFromString s with Ret x => poseidon [x] + Min1024 | _ => 0 end).
    intros s Hs. apply in_map_iff in Hs. destruct Hs as (i & <- & _). unfold rep_of, ElementFromString. rewrite set_string10_dec. reflexivity. }
  destruct EU as [un EU]. rewrite EU. cbn [bind].
  pose proof (unchanged_length _ _ _ _ _ _ _ EU) as UL.
  pose proof (randomizers_nonneg poseidon 200 Hpos) as R2. pose proof (randomizers_nonneg poseidon 300 Hpos) as R3.
  rewrite Randomizer_spec;
    [|assumption|lia|apply Forall_app; split; [eapply GenRep_nonneg; eauto|now apply new_nonneg]|rewrite app_length, new_length, UL; lia].
  cbn [bind]. rewrite SetProductRecursiveFast_spec. cbn [bind]. unfold PoKE.
  destruct (HashToPrime _ _ _ _) as [l| |] eqn:EL; cbn [bind]; [|exfalso; eapply htp_loop_no_panic; exact EL|discriminate].
  apply htp_pos in EL; [|assumption]. rewrite div_mod_pos by lia. cbn [bind].
  change (SetupTranscript setup _ _ _ testEpoch) with (SetupTranscript setup 0 0 0 1000000).
  assert (NP : forall f v l, fs_loop sha is_prime f v l <> Panic).
  { induction f; intros v l'; cbn [fs_loop]; [discriminate|]. destruct (is_prime v); [discriminate|apply IHf]. }
  unfold GetChallengeAndAppend, GetPrimeChallenge.
  destruct (FS_HashToPrime sha is_prime fuel (info (SetupTranscript setup 0 0 0 1000000)) _) as [l1| |] eqn:C1; cbn [bind];
    [|exfalso; eapply NP; exact C1|discriminate].
  destruct (FS_HashToPrime sha is_prime fuel (info (Append (SetupTranscript setup 0 0 0 1000000) (dec l1))) _) as [l2| |] eqn:C2; cbn [bind];
    [|exfalso; eapply NP; exact C2|discriminate].
  apply fs_prime_ret in C1. apply fs_prime_ret in C2. destruct C1 as [C1 _], C2 as [C2 _]. apply Hp in C1. apply Hp in C2.
  rewrite !go_mod_ret by lia. cbn [bind].
  match goal with |- (if negb (IsValid ?u) then _ else _) <> _ => assert (V : IsValid u = true) end.
  { apply C51_is_valid. unfold well_formed, same_lengths. cbn [u_ID u_OB u_OH u_OE u_UB]. rewrite map_length, !test_ids_len. lia. }
  rewrite V. discriminate.
Qed.

(** a run; the hash takes values 1 to 9 *)
Definition small_hash (l : list Z) : Z := 1 + fold_left (fun h x => (h * 2 + x) mod 9) l 1.
Lemma small_hash_nonneg : forall l, 0 <= small_hash l.
Proof.
  intros l. unfold small_hash. destruct (@exists_last _ (1 :: l)) as (l' & x & E); [discriminate|].
  destruct l as [|y l _] using rev_ind; [cbn; lia|]. rewrite fold_left_app. cbn [fold_left].
  match goal with |- 0 <= 1 + ?a mod 9 => pose proof (Z.mod_pos_bound a 9 ltac:(lia)) end. lia.
Qed.
Lemma toy_positive : positive_test toy_prime.
Proof. intros p H. apply toy_prime_ok in H. lia. Qed.

(** compare a power with a large exponent by evaluating Go's Exp *)
Lemma verifies_exp : forall N w x acc, 0 < N -> 0 <= x -> verifies N w x acc -> exp_recv 0 w x N = acc.
Proof. intros N w x acc HN Hx H. rewrite exp_recv_nonneg by assumption. exact H. Qed.

Local Notation small_run := (TestNotusMultiSwap toy_sha toy_prime small_hash 300 (MkSetup 1081 4 9) 4 2).
Definition from (o : outcome notus) : notus :=
  match o with
  | Ret r => r
  | _ => Build_notus [] [] [] 0 0 0 0 [] [] 0 0 0 0 0 (Build_UpdateSet32 0 0 0 0 0 0 0 0 0 0 0 [] [] [] [] [])
  end.
Lemma from_ret : forall o, (match o with Ret _ => true | _ => false end) = true -> o = Ret (from o).
Proof. intros [r| |] H; [reflexivity|discriminate..]. Qed.
Lemma small_ret : small_run = Ret (from small_run).
Proof. apply from_ret. vm_compute. reflexivity. Qed.
Example C73_case : small_run = Ret (from small_run) /\ length (nt_proofs (from small_run)) = 4%nat /\ u_R2 (nt_ret (from small_run)) = 1 /\
  nt_accMid (from small_run) = 300 /\ nt_accOld (from small_run) = 967 /\ nt_accNew (from small_run) = 714.
Proof. split; [exact small_ret|]. do 4 (split; [vm_compute; reflexivity|]). vm_compute. reflexivity. Qed.

Definition bad_run (N : Z) (r : notus) : bool :=
  negb (nt_accOld r =? nt_accOri r) && negb (exp_recv 0 (nt_accMid r) (nt_removedRan r) N =? nt_accOri r) &&
  match nt_proofs r, nt_newSet r with
  | w :: _, x :: _ => (0 <=? x) && negb (exp_recv 0 w x N =? nt_accNew r)
  | _, _ => false
  end.
Lemma bad_run_spec : forall N r, 0 < N -> bad_run N r = true ->
  nt_accOld r <> nt_accOri r /\ exp_recv 0 (nt_accMid r) (nt_removedRan r) N <> nt_accOri r /\
  exists w x, nth_error (nt_proofs r) 0 = Some w /\ nth_error (nt_newSet r) 0 = Some x /\ ~ verifies N w x (nt_accNew r).
Proof.
  intros N r HN H. unfold bad_run in H. apply andb_prop in H. destruct H as [H H3]. apply andb_prop in H. destruct H as [H1 H2].
  apply negb_true_iff, Z.eqb_neq in H1. apply negb_true_iff, Z.eqb_neq in H2. split; [assumption|]. split; [assumption|].
  destruct (nt_proofs r) as [|w ws]; [discriminate|]. destruct (nt_newSet r) as [|x xs]; [discriminate|].
  apply andb_prop in H3. destruct H3 as [H3 H4]. apply Z.leb_le in H3. apply negb_true_iff, Z.eqb_neq in H4.
  exists w, x. split; [reflexivity|]. split; [reflexivity|]. intros V. apply H4. now apply verifies_exp.
Qed.
Lemma small_bad : bad_run 1081 (from small_run) = true.
Proof. vm_compute. reflexivity. Qed.

(** The experiment does not simulate an update: the "middle" accumulator still contains the old entries
    (lines 555-559 compute it from the same product as accOri), so adding them gives an accumulator
    different from the original one, the proof of exponent of line 562 is for a false statement, and the
    membership proofs are not proofs for accNew. *)
Theorem C73_notus_multiswap_refuted : exists sha is_prime poseidon fuel setup n k r w x,
  positive_test is_prime /\ (forall l, 0 <= poseidon l) /\ 0 < sN setup /\ 2 <= k /\ k <= n /\ 4 <= n < 2 ^ 31 /\
  TestNotusMultiSwap sha is_prime poseidon fuel setup n k = Ret r /\
  nt_accOld r <> nt_accOri r /\
  exp_recv 0 (nt_accMid r) (nt_removedRan r) (sN setup) <> nt_accOri r /\
  nth_error (nt_proofs r) 0 = Some w /\ nth_error (nt_newSet r) 0 = Some x /\ ~ verifies (sN setup) w x (nt_accNew r).
Proof.
  pose proof small_ret as E. pose proof small_bad as B. revert E B. generalize (from small_run). intros r E B.
  destruct (bad_run_spec 1081 r ltac:(lia) B) as (B1 & B2 & w & x & B3 & B4 & B5).
  exists toy_sha, toy_prime, small_hash, 300%nat, (MkSetup 1081 4 9), 4, 2, r, w, x.
  split; [exact toy_positive|]. split; [exact small_hash_nonneg|].
  do 4 (split; [cbn [sN]; lia|]). split; [exact E|].
  cbn [sN]. auto.
Qed.

(** ** C74 *)
Lemma runs_product_spec : forall sp set, runs_product sp -> sp set = Ret (product set).
Proof.
  intros sp set H. destruct (H set) as (v & E & M). rewrite E. f_equal. eapply always_returns_unique; [|exact M].
  exact (sp_always_returns (SPTop set 4)).
Qed.
Lemma runs_prover_spec : forall pm G r N set v, runs_prover pm -> 0 < N -> 0 <= r -> Forall (fun x => 0 <= x) set -> (4 <= length set)%nat ->
  pm G r N set = Ret v -> v = wit G N 1 set.
Proof.
  intros pm G r N set v H HN Hr Hs Hl E. apply H in E. eapply always_returns_unique; [|exact E].
  apply (pm_always_returns N (PMRandomizer G r set 5)); [assumption|]. split; [exact Hs|cbn; auto].
Qed.

Theorem C74_notus_parallel_partial : forall sha is_prime poseidon sp pm, positive_test is_prime -> (forall l, 0 <= poseidon l) ->
  runs_product sp -> runs_prover pm ->
  forall fuel setup n k r, 0 < sN setup -> 2 <= k -> k <= n -> 4 <= n < 2 ^ 31 ->
  TestNotusParallel sha is_prime poseidon sp pm fuel setup n k = Ret r ->
  nt_accOld r = nt_accMid r ^ (product (old_entries poseidon k) * randomizers poseidon 200) mod sN setup /\
  (* the update set is that of GenTestSet except for the second remainder *)
  (forall m, exists u, GenTestSet poseidon sha is_prime fuel (Z.to_nat k) setup m = Ret u /\
    nt_ret r = {| u_L1 := u_L1 u; u_L2 := u_L2 u; u_R1 := u_R1 u; u_R2 := u_R2 (nt_ret r); u_Epoch := u_Epoch u; u_D1 := u_D1 u; u_D2 := u_D2 u;
                u_Rand1 := u_Rand1 u; u_Rand2 := u_Rand2 u; u_OSum := u_OSum u; u_USum := u_USum u;
                u_ID := u_ID u; u_OB := u_OB u; u_OH := u_OH u; u_OE := u_OE u; u_UB := u_UB u |} /\
    u_R2 u = (product (new_entries poseidon k) * randomizers poseidon 300) mod u_L2 u /\
    u_R2 (nt_ret r) = (product (old_entries poseidon k) * randomizers poseidon 300) mod u_L2 u) /\
  (* the membership proofs are those of the new set without its randomizer *)
  (exists un, GenRepresentatives sha is_prime poseidon fuel (map (fun i => dec (Z.of_nat i)) (seq 0 (Z.to_nat (n - k)))) DIHashFromPoseidon = Ret un /\
    length (nt_proofs r) = Z.to_nat n /\
    forall i w x, nth_error (nt_proofs r) i = Some w -> nth_error (un ++ new_entries poseidon k) i = Some x ->
      verifies (sN setup) w x (sG setup ^ product (un ++ new_entries poseidon k) mod sN setup)).
Proof.
  intros sha is_prime poseidon sp pm Hp Hpos Hsp Hpm fuel setup n k r HN H2 Hk Hn H.
  destruct (Notus_ret _ _ _ _ _ _ _ _ _ _ Hp Hpos HN H2 Hk (proj2 Hn) H) as
    (p1 & p2 & l1 & l2 & t & EP & E1 & E2 & E3 & E4 & E5 & E6 & EU & ES & EV & EM & EO & EA & EB & _ & C1 & [t' C2] & L1 & L2 & U1 & U2 & U3 & U4 & UR).
  rewrite !(runs_product_spec _ _ Hsp) in EP. cbn [bind] in EP. injection EP as <- <-.
  pose proof (product_nonneg _ (old_nonneg poseidon k Hpos)).
  pose proof (randomizers_nonneg poseidon 200 Hpos). pose proof (randomizers_nonneg poseidon 300 Hpos).
  rewrite EA, E5. rewrite !exp_recv_nonneg by (try assumption; now apply Z.mul_nonneg_nonneg).
  split; [reflexivity|]. split.
  - intros m. rewrite GenTestSet_spec; [|lia|lia|exact Hp]. rewrite C1. cbn [bind]. rewrite C2. cbn [bind]. cbv zeta.
    eexists. split; [reflexivity|]. split; [|split].
    + rewrite UR at 1. rewrite U3, E5. rewrite (test_R1 poseidon k l1 l2). reflexivity.
    + exact (eq_sym (test_R2 poseidon k l1 l2)).
    + rewrite U4, E6. reflexivity.
  - exists (nt_unchanged r). split; [exact EU|]. rewrite ES in EV. pose proof (unchanged_length _ _ _ _ _ _ _ EU) as UL.
    assert (LN : length (nt_unchanged r ++ new_entries poseidon k) = Z.to_nat n) by (rewrite app_length, new_length, UL; lia).
    assert (FN : Forall (fun x => 0 <= x) (nt_unchanged r ++ new_entries poseidon k))
      by (apply Forall_app; split; [eapply GenRep_nonneg; eauto|now apply new_nonneg]).
    apply runs_prover_spec in EV; [|assumption..|lia]. rewrite EV, wit_length. split; [exact LN|].
    intros i w x Hw Hx. apply wit_nth in Hw. rewrite Z.mul_1_l in Hw. subst w. unfold verifies.
    rewrite pow_mod_mul.
    + rewrite (without_product _ _ _ Hx). reflexivity.
    + apply product_nonneg. now apply without_Forall.
    + apply (proj1 (Forall_forall _ _) FN). eapply nth_error_In; eauto.
Qed.

(** the goroutines do have runs *)
Definition sp_run (set : list Z) : outcome Z := Ret (product set).
Definition pm_run (G r N : Z) (set : list Z) : outcome (list Z) :=
  if (0 <? N) && (0 <=? r) && forallb (fun x => 0 <=? x) set && (4 <=? Z.of_nat (length set))
  then ProveMembershipSingleThreadWithRandomizer G 1 N set else Panic.
Lemma grun_snoc : forall (task val : Type) (expand : task -> outcome (action task val)) sched g p,
  grun expand g (sched ++ [p]) = match grun expand g sched with Some (Ret g') => gstep expand g' p | _ => None end.
Proof.
  intros task val expand. induction sched as [|q sched IH]; intros g p; cbn [app grun].
  - destruct g as [g| |]; [|reflexivity..]. destruct (gstep expand g p); reflexivity.
  - destruct g as [g| |]; [|reflexivity..]. destruct (gstep expand g q); [apply IH|reflexivity].
Qed.
Lemma always_may : forall (task val : Type) (expand : task -> outcome (action task val)) t v,
  always_returns expand t v -> may_return expand t v.
Proof.
  intros task val expand t v [b H].
  assert (G : forall k, (exists sched, grun expand (Ret (GRun t)) sched = Some (Ret (GDone v))) \/
                        (exists sched st, length sched = k /\ grun expand (Ret (GRun t)) sched = Some st)).
  { induction k as [|k [I|(sched & st & L & R)]]; [right; exists [], (Ret (GRun t)); now split|now left|].
    destruct (H _ _ R) as [_ [[-> _]|(g & p & st' & -> & _ & S)]]; [left; now exists sched|].
    right. exists (sched ++ [p]), st'. rewrite app_length, grun_snoc, R, S, L. split; [cbn; lia|reflexivity]. }
  destruct (G (S b)) as [I|(sched & st & L & R)]; [exact I|]. destruct (H _ _ R) as [B _]. lia.
Qed.
Lemma sp_run_ok : runs_product sp_run.
Proof. intros set. exists (product set). split; [reflexivity|]. apply always_may. exact (sp_always_returns (SPTop set 4)). Qed.
Lemma pm_run_ok : runs_prover pm_run.
Proof.
  intros G r N set v H. unfold pm_run in H.
  destruct (_ && _) eqn:B in H; [|discriminate]. apply andb_prop in B. destruct B as [B B4]. apply andb_prop in B. destruct B as [B B3].
  apply andb_prop in B. destruct B as [B1 B2]. apply Z.ltb_lt in B1. apply Z.leb_le in B2, B4. rewrite forallb_forall in B3.
  assert (F : Forall (fun x => 0 <= x) set) by (apply Forall_forall; intros x Hx; apply Z.leb_le; now apply B3).
  rewrite Randomizer_spec in H by (auto; lia). injection H as <-. apply always_may.
  apply (pm_always_returns N (PMRandomizer G r set 5)); [assumption|]. split; [exact F|cbn; lia].
Qed.

Local Notation par_run := (TestNotusParallel toy_sha toy_prime small_hash sp_run pm_run 300 (MkSetup 1081 4 9) 4 2).
Lemma par_ret : par_run = Ret (from par_run).
Proof. apply from_ret. vm_compute. reflexivity. Qed.
Example C74_case : par_run = Ret (from par_run) /\ length (nt_proofs (from par_run)) = 4%nat /\ u_R1 (nt_ret (from par_run)) = 0 /\ u_R2 (nt_ret (from par_run)) = 2 /\
  nt_accMid (from par_run) = 300 /\ nt_accOld (from par_run) = 967 /\ nt_accNew (from par_run) = 990.
Proof. split; [exact par_ret|]. do 5 (split; [vm_compute; reflexivity|]). vm_compute. reflexivity. Qed.

Definition par_bad (N G : Z) (r r0 : notus) : bool :=
  negb (u_R2 (nt_ret r) =? u_R2 (nt_ret r0)) && negb (nt_accNew r =? nt_accNew r0) &&
  match nt_proofs r, nt_newSet r with
  | w :: _, x :: _ => (0 <=? x) && negb (exp_recv 0 w x N =? exp_recv 0 G (nt_insertedRan r * product (nt_newSet r)) N)
  | _, _ => false
  end.
Lemma par_bad_true : par_bad 1081 4 (from par_run) (from small_run) = true.
Proof. vm_compute. reflexivity. Qed.

(** The parallel experiment differs from the sequential one: line 662 multiplies the old entries a second
    time instead of the new ones, so R2 and accNew are those of another update, and with limit 5 the
    membership prover drops the randomizer. *)
Theorem C74_notus_parallel_refuted : exists sha is_prime poseidon sp pm fuel setup n k r r0 w x,
  positive_test is_prime /\ (forall l, 0 <= poseidon l) /\ runs_product sp /\ runs_prover pm /\
  0 < sN setup /\ 2 <= k /\ k <= n /\ 4 <= n < 2 ^ 31 /\
  TestNotusParallel sha is_prime poseidon sp pm fuel setup n k = Ret r /\
  TestNotusMultiSwap sha is_prime poseidon fuel setup n k = Ret r0 /\
  u_R2 (nt_ret r) <> u_R2 (nt_ret r0) /\ nt_accNew r <> nt_accNew r0 /\
  nth_error (nt_proofs r) 0 = Some w /\ nth_error (nt_newSet r) 0 = Some x /\
  ~ verifies (sN setup) w x (exp_recv 0 (sG setup) (nt_insertedRan r * product (nt_newSet r)) (sN setup)).
Proof.
  pose proof par_ret as E. pose proof small_ret as E0. pose proof par_bad_true as B. revert E E0 B.
  generalize (from par_run) (from small_run). intros r r0 E E0 B. unfold par_bad in B.
  apply andb_prop in B. destruct B as [B B3]. apply andb_prop in B. destruct B as [B1 B2].
  apply negb_true_iff, Z.eqb_neq in B1. apply negb_true_iff, Z.eqb_neq in B2.
  destruct (nt_proofs r) as [|w ws] eqn:EW; [discriminate|]. destruct (nt_newSet r) as [|x xs] eqn:EX; [discriminate|].
  apply andb_prop in B3. destruct B3 as [B3 B4]. apply Z.leb_le in B3. apply negb_true_iff, Z.eqb_neq in B4.
  exists toy_sha, toy_prime, small_hash, sp_run, pm_run, 300%nat, (MkSetup 1081 4 9), 4, 2, r, r0, w, x.
  split; [exact toy_positive|]. split; [exact small_hash_nonneg|]. split; [exact sp_run_ok|]. split; [exact pm_run_ok|].
  cbn [sN sG]. do 4 (split; [lia|]). split; [exact E|]. split; [exact E0|]. split; [assumption|]. split; [assumption|].
  rewrite EW, EX. split; [reflexivity|]. split; [reflexivity|]. intros V. apply B4. apply verifies_exp in V; [exact V|lia|assumption].
Qed.

(** ** C75 *)
Lemma near_power : forall M d n, 0 <= d -> 0 <= M -> Z.of_nat n * d <= M ->
  (M + d) ^ Z.of_nat n * (M - Z.of_nat n * d) <= M ^ Z.of_nat n * M.
Proof.
  intros M d n Hd HM. induction n as [|n IH]; intros H; [change (Z.of_nat 0) with 0; rewrite !Z.pow_0_r; lia|].
  rewrite !Nat2Z.inj_succ in *. rewrite !Z.pow_succ_r by lia.
  assert (Hn : Z.of_nat n * d <= M) by nia. specialize (IH Hn).
  pose proof (Z.pow_nonneg (M + d) (Z.of_nat n) ltac:(lia)) as P.
  set (A := (M + d) ^ Z.of_nat n) in *. set (C := M ^ Z.of_nat n) in *. set (k := Z.of_nat n) in *.
  assert (E : (M + d) * A * (M - Z.succ k * d) = A * (M - k * d) * M - A * (Z.succ k * d * d)) by (unfold Z.succ; ring).
  rewrite E. assert (0 <= A * (Z.succ k * d * d)) by (apply Z.mul_nonneg_nonneg; [assumption|]; apply Z.mul_nonneg_nonneg; [|assumption]; nia).
  assert (A * (M - k * d) * M <= C * M * M) by (apply Z.mul_le_mono_nonneg_r; assumption). nia.
Qed.
Lemma bernoulli : forall M d n, 0 <= d -> 0 <= M ->
  M * M ^ Z.of_nat n + Z.of_nat n * d * M ^ Z.of_nat n <= M * (M + d) ^ Z.of_nat n.
Proof.
  intros M d n Hd HM. induction n as [|n IH]; [change (Z.of_nat 0) with 0; rewrite !Z.pow_0_r; lia|].
  rewrite !Nat2Z.inj_succ. rewrite !Z.pow_succ_r by lia.
  pose proof (Z.pow_nonneg M (Z.of_nat n) HM). set (A := (M + d) ^ Z.of_nat n) in *. set (C := M ^ Z.of_nat n) in *. set (k := Z.of_nat n) in *.
  apply Z.le_trans with ((M + d) * (M * C + k * d * C)); [|nia].
  assert (0 <= k * d * d * C) by (repeat apply Z.mul_nonneg_nonneg; lia). unfold Z.succ. nia.
Qed.
Lemma product_repeat : forall x n, product (repeat x n) = x ^ Z.of_nat n.
Proof. intros x. induction n as [|n IH]; [reflexivity|]. cbn [repeat]. rewrite product_cons, IH, Nat2Z.inj_succ, Z.pow_succ_r by lia. reflexivity. Qed.
Lemma product_between : forall lo hi l, 0 <= lo -> Forall (fun x => lo <= x <= hi) l ->
  lo ^ Z.of_nat (length l) <= product l <= hi ^ Z.of_nat (length l).
Proof.
  intros lo hi l Hlo H. induction H as [|x l Hx Hl IH]; [cbn; lia|]. rewrite product_cons. cbn [length].
  rewrite Nat2Z.inj_succ, !Z.pow_succ_r by lia. pose proof (Z.pow_nonneg lo (Z.of_nat (length l)) Hlo).
  split; apply Z.mul_le_mono_nonneg; lia.
Qed.

Theorem C75_di_range : forall n, 0 <= n < 2 ^ 765 ->
  exists lo hi a, genDIMin n = Ret lo /\ genDIMax n = Ret hi /\
    (* the two lists bound the product of every list of n division-intractable representatives *)
    (forall sha is_prime poseidon fuel set rep, (forall l, 0 <= poseidon l < fr_modulus) ->
       GenRepresentatives sha is_prime poseidon fuel set DIHashFromPoseidon = Ret rep -> length set = Z.to_nat n ->
       product lo <= product rep <= product hi) /\
    (* what TestRange prints: both bounds have 1023 n + 1 bits, and the top 766 - (bits of n) bits agree *)
    TestRange n = Ret (a, 1023 * n + 1, 1023 * n + 1) /\
    (1 <= n -> 1023 * n - 766 <= a <= 1023 * n - 766 + bit_len n).
Proof.
  intros n Hn. unfold TestRange, genDIMin, genDIMax. destruct (Z.ltb_spec n 0); [lia|]. cbn [bind].
  rewrite !SetProductRecursive_spec. cbn [bind]. rewrite !product_repeat, Z2Nat.id by lia. rewrite Z.shiftl_1_l, Min1024_val.
  set (M := 2 ^ 1023). set (d := 2 ^ 256).
  assert (EM : M = 2 * (2 ^ 765 * (2 * d))) by (unfold M, d; rewrite <- !Z.pow_succ_r, <- Z.pow_add_r, <- Z.pow_succ_r by lia; reflexivity).
  assert (Hd : 0 < d) by (unfold d; apply Z.pow_pos_nonneg; lia).
  assert (P0 : 0 < 2 ^ 765) by (apply Z.pow_pos_nonneg; lia).
  assert (HM : 0 < M) by (unfold M; apply Z.pow_pos_nonneg; lia).
  assert (HB : 4 * (n * d) <= M) by nia.
  pose proof (near_power M d (Z.to_nat n) ltac:(lia) ltac:(lia)) as NP. pose proof (bernoulli M d (Z.to_nat n) ltac:(lia) ltac:(lia)) as BE.
  rewrite Z2Nat.id in NP, BE by lia. specialize (NP ltac:(lia)).
  pose proof (Z.pow_pos_nonneg M n HM ltac:(lia)) as PL. assert (EL : M ^ n = 2 ^ (1023 * n)) by (unfold M; rewrite <- Z.pow_mul_r by lia; reflexivity).
  set (L := M ^ n) in *. set (U := (M + d) ^ n) in *.
  assert (LU : L <= U) by nia.
  assert (U2 : U < 2 * L) by nia.
  assert (B1 : bit_len L = 1023 * n + 1) by (apply bit_len_char; [lia|]; rewrite <- EL, Z.pow_add_r, <- EL by lia; lia).
  assert (B2 : bit_len U = 1023 * n + 1) by (apply bit_len_char; [lia|]; rewrite <- EL, Z.pow_add_r, <- EL by lia; lia).
  do 3 eexists. split; [reflexivity|]. split; [reflexivity|]. split; [|split].
  - intros sha is_prime poseidon fuel set rep Hpos HR HL. rewrite !product_repeat.
    assert (F : Forall (fun x => 2 ^ 1023 <= x <= 2 ^ 1023 + 2 ^ 256) rep).
    { rewrite GenRep_map in HR. apply map_outcome_ret in HR. clear -HR Hpos. induction HR as [|s x l l' E _ IH]; constructor; [|exact IH].
      unfold rep_of in E. rewrite Z.eqb_refl in E. destruct (ElementFromString s) as [e| |]; cbn [bind] in E; [|discriminate..]. injection E as <-.
      rewrite Min1024_val. specialize (Hpos [e]). assert (fr_modulus < 2 ^ 256) by reflexivity. lia. }
    apply product_between in F; [|apply Z.pow_nonneg; lia]. apply GenRep_length in HR. rewrite HR, HL in F. exact F.
  - rewrite B1, B2. reflexivity.
  - intros H1.
    assert (D1 : n * d * L <= M * (U - L)) by nia.
    assert (D2 : (U - L) * M <= 2 * (n * d * L)) by nia.
    assert (ED : M = d * 2 ^ 767) by (unfold M, d; rewrite <- Z.pow_add_r by lia; reflexivity).
    assert (E1 : n * L <= 2 ^ 767 * (U - L)) by (rewrite ED in D1; nia).
    assert (E2 : 2 ^ 767 * (U - L) <= 2 * (n * L)) by (rewrite ED in D2; nia).
    assert (EL2 : L = 2 ^ 767 * 2 ^ (1023 * n - 767)) by (rewrite EL, <- Z.pow_add_r by lia; f_equal; lia).
    assert (P7 : 0 < 2 ^ 767) by (apply Z.pow_pos_nonneg; lia).
    set (Q := 2 ^ (1023 * n - 767)) in *. assert (HQ : 0 < Q) by (unfold Q; apply Z.pow_pos_nonneg; lia).
    assert (F1 : n * Q <= U - L) by (rewrite EL2 in E1 at 1; nia).
    assert (F2 : U - L <= 2 * (n * Q)) by (rewrite EL2 in E2 at 2; nia).
    split.
    + apply Z.nlt_ge. intros C. assert (C' : bit_len (U - L) <= 1023 * n - 767) by lia. apply bit_len_le_iff in C'; [|lia]. rewrite Z.abs_eq in C' by lia. fold Q in C'. nia.
    + assert (BN : 0 <= bit_len n) by (unfold bit_len; destruct (n =? 0); [lia|]; pose proof (Z.log2_nonneg (Z.abs n)); lia).
      pose proof (proj1 (bit_len_le_iff n (bit_len n) BN) (Z.le_refl _)) as NB. rewrite Z.abs_eq in NB by lia.
      apply bit_len_le_iff; [lia|]. rewrite Z.abs_eq by lia.
      replace (1023 * n - 766 + bit_len n) with (1023 * n - 767 + (1 + bit_len n)) by ring. rewrite !Z.pow_add_r by lia. fold Q. change (2 ^ 1) with 2. nia.
Qed.
Example C75_case : TestRange 3 = Ret (2304, 3070, 3070) /\ bit_len 3 = 2.
Proof. split; vm_compute; reflexivity. Qed.
(** a negative size panics *)
Theorem C75_negative : forall n, n < 0 -> genDIMin n = Panic /\ genDIMax n = Panic /\ TestRange n = Panic.
Proof. intros n H. unfold TestRange, genDIMin, genDIMax. apply Z.ltb_lt in H. rewrite H. repeat split. Qed.

(** ** C76 *)
Ltac divs := repeat match goal with
  | |- context [(?a / ?b)%nat] => pose proof (Nat.div_mod a b ltac:(lia)); pose proof (Nat.mod_upper_bound a b ltac:(lia)); generalize dependent (a / b)%nat; intros
  end.
Lemma quarter_bounds : forall n, (n / 4 <= n / 2 /\ n / 2 <= n * 3 / 4 /\ n * 3 / 4 <= n /\ n / 2 <= n /\ n / 4 <= n)%nat.
Proof.
  intros n. pose proof (Nat.div_mod n 4 ltac:(lia)). pose proof (Nat.mod_upper_bound n 4 ltac:(lia)).
  pose proof (Nat.div_mod n 2 ltac:(lia)). pose proof (Nat.mod_upper_bound n 2 ltac:(lia)).
  pose proof (Nat.div_mod (n * 3) 4 ltac:(lia)). pose proof (Nat.mod_upper_bound (n * 3) 4 ltac:(lia)). lia.
Qed.
Lemma table_exponents_spec : forall r set, let n := length set in
  table_exponents r set = Ret
    [product (slice set (n / 2) n) * r * product (slice set (n / 4) (n / 2)); product (slice set (n / 2) n) * r * product (slice set 0 (n / 4));
     product (slice set 0 (n / 2)) * r * product (slice set (n * 3 / 4) n); product (slice set 0 (n / 2)) * r * product (slice set (n / 2) (n * 3 / 4))].
Proof.
  intros r set n. unfold table_exponents. fold n. pose proof (quarter_bounds n).
  rewrite !go_slice_ret by (fold n; lia). cbn [bind]. rewrite !SetProductRecursiveFast_spec. reflexivity.
Qed.
(** these are the exponents the prover uses *)
Lemma table_exponents_used : forall base r N set, exists k,
  ProveMembershipSingleThreadWithRandomizer base r N set = (do es <- table_exponents r set; do bases <- multi_exp base N es; k bases).
Proof.
  intros base r N set. rewrite table_exponents_spec. set (n := length set). pose proof (quarter_bounds n).
  unfold ProveMembershipSingleThreadWithRandomizer. fold n. rewrite !go_slice_ret by (fold n; lia). cbn [bind].
  rewrite !SetProductRecursiveFast_spec. cbn [bind]. eexists. reflexivity.
Qed.

Definition di_element (x : Z) : Prop := 2 ^ 1023 <= x <= 2 ^ 1023 + 2 ^ 256.
Lemma di_product : forall l, Forall di_element l -> Z.of_nat (length l) < 2 ^ 765 -> 0 <= product l < 2 ^ (1023 * Z.of_nat (length l) + 1).
Proof.
  intros l H Hl. unfold di_element in H.
  apply product_between in H; [|apply Z.pow_nonneg; lia].
  set (M := 2 ^ 1023) in *. set (d := 2 ^ 256) in *. set (n := Z.of_nat (length l)) in *.
  assert (EM : M = 2 * (2 ^ 765 * (2 * d))) by (unfold M, d; rewrite <- !Z.pow_succ_r, <- Z.pow_add_r, <- Z.pow_succ_r by lia; reflexivity).
  assert (Hd : 0 < d) by (unfold d; apply Z.pow_pos_nonneg; lia).
  assert (P0 : 0 < 2 ^ 765) by (apply Z.pow_pos_nonneg; lia).
  assert (HM : 0 < M) by (unfold M; apply Z.pow_pos_nonneg; lia).
  assert (H0 : 0 <= n) by (unfold n; lia).
  assert (HB : 4 * (n * d) <= M) by nia.
  pose proof (near_power M d (length l) ltac:(lia) ltac:(lia)) as NP. fold n in NP. specialize (NP ltac:(lia)).
  pose proof (Z.pow_pos_nonneg M n HM H0) as PL. assert (EL : M ^ n = 2 ^ (1023 * n)) by (unfold M; rewrite <- Z.pow_mul_r by lia; reflexivity).
  rewrite Z.pow_add_r, <- EL by lia. change (2 ^ 1) with 2.
  set (L := M ^ n) in *. set (U := (M + d) ^ n) in *. assert (U2 : U < 2 * L) by nia. lia.
Qed.
Lemma table_exponent_bits : forall r set, Forall di_element set -> Z.of_nat (length set) < 2 ^ 765 -> 0 <= r < 2 ^ 2047 ->
  exists es, table_exponents r set = Ret es /\
    Forall (fun e => bit_len e <= 1023 * (Z.of_nat (length set) - Z.of_nat (length set) / 4) + 2049) es.
Proof.
  intros r set Hs Hl Hr. rewrite table_exponents_spec. eexists. split; [reflexivity|]. cbv zeta.
  assert (K : forall a b c d, (a <= b <= length set)%nat -> (c <= d <= length set)%nat -> (b - a + (d - c) + length set / 4 <= length set)%nat ->
    bit_len (product (slice set a b) * r * product (slice set c d)) <= 1023 * (Z.of_nat (length set) - Z.of_nat (length set) / 4) + 2049).
  { intros a b c d H1 H2 H3.
    pose proof (slice_length _ set a b H1) as L1. pose proof (slice_length _ set c d H2) as L2.
    pose proof (di_product _ (slice_Forall _ _ set a b Hs)) as B1. pose proof (di_product _ (slice_Forall _ _ set c d Hs)) as B2.
    rewrite L1 in B1. rewrite L2 in B2. specialize (B1 ltac:(lia)). specialize (B2 ltac:(lia)).
    assert (E4 : Z.of_nat (length set / 4) = Z.of_nat (length set) / 4) by (rewrite Nat2Z.inj_div; reflexivity).
    set (u := Z.of_nat (b - a)) in *. set (v := Z.of_nat (d - c)) in *.
    assert (UV : u + v + Z.of_nat (length set) / 4 <= Z.of_nat (length set)) by (unfold u, v; lia).
    assert (U0 : 0 <= u) by (unfold u; lia). assert (V0 : 0 <= v) by (unfold v; lia).
    set (p := product (slice set a b)) in *. set (q := product (slice set c d)) in *.
    apply bit_len_le_iff; [lia|]. rewrite Z.abs_eq by (repeat apply Z.mul_nonneg_nonneg; lia).
    apply Z.lt_le_trans with (2 ^ (1023 * u + 1) * 2 ^ 2047 * 2 ^ (1023 * v + 1)).
    - pose proof (Z.pow_pos_nonneg 2 (1023 * u + 1) ltac:(lia) ltac:(lia)). pose proof (Z.pow_pos_nonneg 2 2047 ltac:(lia) ltac:(lia)).
      destruct B1 as [B1 B1'], B2 as [B2 B2'], Hr as [R1 R2]. 
      set (A := 2 ^ (1023 * u + 1)) in *. set (C := 2 ^ (1023 * v + 1)) in *. set (R := 2 ^ 2047) in *.
      assert (p * r <= A * R) by (apply Z.mul_le_mono_nonneg; lia). assert (0 < A * R) by (now apply Z.mul_pos_pos).
      apply Z.le_lt_trans with (A * R * q); [apply Z.mul_le_mono_nonneg_r; assumption|apply Z.mul_lt_mono_pos_l; assumption].
    - rewrite <- !Z.pow_add_r by lia. apply Z.pow_le_mono_r; lia. }
  pose proof (quarter_bounds (length set)). set (n := length set) in *.
  assert (Q : (n - n / 2 + (n / 2 - n / 4) + n / 4 <= n /\ n - n / 2 + n / 4 + n / 4 <= n /\
               n / 2 + (n - n * 3 / 4) + n / 4 <= n /\ n / 2 + (n * 3 / 4 - n / 2) + n / 4 <= n)%nat).
  { pose proof (Nat.div_mod n 4 ltac:(lia)). pose proof (Nat.mod_upper_bound n 4 ltac:(lia)).
    pose proof (Nat.div_mod n 2 ltac:(lia)). pose proof (Nat.mod_upper_bound n 2 ltac:(lia)).
    pose proof (Nat.div_mod (n * 3) 4 ltac:(lia)). pose proof (Nat.mod_upper_bound (n * 3) 4 ltac:(lia)). lia. }
  repeat apply Forall_cons; [apply K; lia..|apply Forall_nil].
Qed.

(** an exponent fits a table of [words] 64-bit words *)
Definition fits (words e : Z) : Prop := bit_len e <= 64 * words.
Lemma div64 : forall a, 0 <= a -> a - 63 <= 64 * (a / 64).
Proof. intros a Ha. pose proof (Z.div_mod a 64 ltac:(lia)). pose proof (Z.mod_pos_bound a 64 ltac:(lia)). lia. Qed.

Theorem C76_table_capacity_partial : forall r set, Forall di_element set -> 0 <= r < 2 ^ 2047 ->
  let n := Z.of_nat (length set) in
  exists es, table_exponents r set = Ret es /\
    (8 <= n < 2 ^ 52 -> Forall (fits (maxLen_precompute n)) es) /\
    (4 <= n < 2 ^ 52 -> Forall (fits (maxLen_DI n)) es) /\
    (4 <= n < 2 ^ 21 -> Forall (fits (maxLen_notus n)) es).
Proof.
  intros r set Hs Hr n.
  assert (HL : n < 2 ^ 765 \/ 2 ^ 52 <= n).
  { destruct (Z_lt_le_dec n (2 ^ 52)) as [L|L]; [left|now right]. apply Z.lt_trans with (2 ^ 52); [exact L|]. apply Z.pow_lt_mono_r; lia. }
  assert (P52 : 2 ^ 21 < 2 ^ 52) by reflexivity.
  destruct HL as [HL|HL].
  2:{ rewrite table_exponents_spec. eexists. split; [reflexivity|]. split; [|split]; intros; lia. }
  destruct (table_exponent_bits r set Hs HL Hr) as (es & E & F). fold n in F. exists es. split; [exact E|].
  assert (D4 : 4 * (n / 4) <= n < 4 * (n / 4) + 4) by (pose proof (Z.div_mod n 4 ltac:(lia)); pose proof (Z.mod_pos_bound n 4 ltac:(lia)); lia).
  split; [|split]; intros Hn; (eapply Forall_impl; [|exact F]); cbv beta; unfold fits; intros e He.
  - unfold maxLen_precompute, UintSize. destruct (Z_lt_le_dec n 12) as [S|S].
    + assert (C : n = 8 \/ n = 9 \/ n = 10 \/ n = 11) by lia.
      destruct C as [C|[C|[C|C]]]; rewrite C in *; match type of He with _ <= ?b => let v := eval vm_compute in b in change b with v in He end;
        match goal with |- _ <= ?b => let v := eval vm_compute in b in change b with v end; lia.
    + pose proof (div64 (n * 1025) ltac:(lia)). lia.
  - unfold maxLen_DI, UintSize. pose proof (div64 (n * 2048) ltac:(lia)). lia.
  - unfold maxLen_notus, UintSize, u32. rewrite Z.mod_small by (change (2 ^ 32) with (2 ^ 21 * 2048); lia). pose proof (div64 (n * 2048) ltac:(lia)). lia.
Qed.
Example C76_case : Forall di_element (repeat (2 ^ 1023) 8) /\ (0 <= 2 ^ 2047 - 1 < 2 ^ 2047) /\
  exists es, table_exponents (2 ^ 2047 - 1) (repeat (2 ^ 1023) 8) = Ret es /\ map bit_len es = [8185; 8185; 8185; 8185] /\ 64 * maxLen_precompute 8 = 8192.
Proof.
  split; [apply Forall_forall; intros x Hx; apply repeat_spec in Hx; subst x; split; [apply Z.le_refl|apply Z.leb_le; vm_compute; reflexivity]|].
  split; [split; [apply Z.leb_le|apply Z.ltb_lt]; vm_compute; reflexivity|].
  eexists. split; [vm_compute; reflexivity|]. split; vm_compute; reflexivity.
Qed.

(** Two sizes for which a table is too small: 4 elements with the tables of 1025 bits per element, and
    2^21 elements in the Notus experiments, where the product of two uint32 wraps to a table of no words. *)
Theorem C76_table_capacity_refuted :
  (exists r set es, Forall di_element set /\ 0 <= r < 2 ^ 2047 /\ length set = 4%nat /\ table_exponents r set = Ret es /\
     Forall (fun e => ~ fits (maxLen_precompute (Z.of_nat (length set))) e) es) /\
  (exists set, Forall di_element set /\ Z.of_nat (length set) = 2 ^ 21 /\ maxLen_notus (Z.of_nat (length set)) = 0 /\
     forall r, 0 < r -> exists es, table_exponents r set = Ret es /\ Forall (fun e => ~ fits (maxLen_notus (Z.of_nat (length set))) e) es).
Proof.
  assert (DI : forall n, Forall di_element (repeat (2 ^ 1023) n)).
  { intros n. apply Forall_forall. intros x Hx. apply repeat_spec in Hx. subst x. split; [apply Z.le_refl|apply Z.leb_le; vm_compute; reflexivity]. }
  split.
  - exists (2 ^ 2047 - 1), (repeat (2 ^ 1023) 4).
    eexists. split; [apply DI|]. split; [split; [apply Z.leb_le|apply Z.ltb_lt]; vm_compute; reflexivity|]. split; [reflexivity|].
    split; [vm_compute; reflexivity|].
    repeat apply Forall_cons; [unfold fits; apply Z.lt_nge, Z.ltb_lt; vm_compute; reflexivity..|apply Forall_nil].
  - set (n := Z.to_nat (2 ^ 21)). exists (repeat (2 ^ 1023) n).
    assert (LN : Z.of_nat (length (repeat (2 ^ 1023) n)) = 2 ^ 21) by (rewrite repeat_length; unfold n; apply Z2Nat.id; lia).
    clearbody n. split; [apply DI|]. split; [exact LN|]. rewrite LN. split; [reflexivity|]. change (maxLen_notus (2 ^ 21)) with 0.
    intros r Hr. rewrite table_exponents_spec. eexists. split; [reflexivity|]. cbv zeta.
    assert (PP : forall a b, 0 < product (slice (repeat (2 ^ 1023) n) a b)).
    { intros a b. assert (F : Forall (fun x => 0 < x) (slice (repeat (2 ^ 1023) n) a b)).
      { apply slice_Forall, Forall_forall. intros x Hx. apply repeat_spec in Hx. subst x. apply Z.pow_pos_nonneg; lia. }
      induction F; [cbn; lia|]. rewrite product_cons. now apply Z.mul_pos_pos. }
    assert (K : forall x, 0 < x -> ~ fits 0 x).
    { intros x Hx B. unfold fits in B. apply bit_len_le_iff in B; [|lia]. change (2 ^ (64 * 0)) with 1 in B. lia. }
    repeat apply Forall_cons; [apply K; apply Z.mul_pos_pos; [apply Z.mul_pos_pos; [apply PP|exact Hr]|apply PP]..|apply Forall_nil].
Qed.

Print Assumptions C72_TestPoKE.
Print Assumptions C73_PoKE.
Print Assumptions C73_notus_multiswap_partial.
Print Assumptions C73_no_panic.
Print Assumptions C73_notus_multiswap_refuted.
Print Assumptions C74_notus_parallel_partial.
Print Assumptions C74_notus_parallel_refuted.
Print Assumptions C75_di_range.
Print Assumptions C75_negative.
Print Assumptions C76_table_capacity_partial.
Print Assumptions C76_table_capacity_refuted.
