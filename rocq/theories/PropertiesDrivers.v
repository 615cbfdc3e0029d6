(** Theorems for properties C91 and C93: the drivers of experiments/finaltests.go, experiments/integers.go and
    accumulator/manualbench.go. *)
From Coq Require Import ZArith Bool Lia String List.
From Verif Require Import GoBig GoBigFacts Spec Sched AccModel AccFacts AccProofs StrFacts HashModel HashProofs FSModel FSProofs CircuitModel CircuitProofs PropertiesCircuit ForkJoin
  ParModel ParProofs ParIterModel AccParModel PokeModel PokeProofs SquaresModel SquaresProofs RangeModel RangeProofs PropertiesAcc PropertiesHash
  PropertiesPoke PropertiesSquares PropertiesRange PropertiesParIter PropertiesBinding ExperimentModel PropertiesExperiments SmallSquares PropertiesSmall DriverModel.
Import ListNotations.
Open Scope Z_scope.

(** ** The set every driver uses: the representatives of "0", "1", ..., "n-1" *)
Definition bench_reps (poseidon : list Z -> Z) (n : Z) : list Z :=
  map (fun i => poseidon [Z.of_nat i mod fr_modulus] + 2 ^ 1023) (seq 0 (Z.to_nat n)).

Section Bench.
Variable sha : string -> string.
Variable is_prime : Z -> bool.
Variable poseidon : list Z -> Z.
Hypothesis pos : forall l, 0 <= poseidon l.

Lemma bench_ret : forall fuel n, 0 <= n -> exists set, GenBenchSet n = Ret set /\ Z.of_nat (length set) = n /\
  GenRepresentatives sha is_prime poseidon fuel set DIHashFromPoseidon = Ret (bench_reps poseidon n).
Proof using.
  clear pos. intros fuel n Hn. unfold GenBenchSet. destruct (Z.ltb_spec n 0); [lia|]. eexists. split; [reflexivity|].
  split; [rewrite map_length, seq_length; lia|]. rewrite GenRep_map.
  set (g := fun s => match ElementFromString s with Ret x => poseidon [x] + 2 ^ 1023 | _ => 0 end).
  replace (bench_reps poseidon n) with (map g (map (fun i => dec (Z.of_nat i)) (seq 0 (Z.to_nat n)))).
  2:{ rewrite map_map. unfold bench_reps. apply map_ext. intros i. unfold g, ElementFromString. rewrite set_string10_dec. reflexivity. }
  apply map_outcome_Ret. intros s Hs. apply in_map_iff in Hs. destruct Hs as (i & <- & _). unfold rep_of, g, ElementFromString.
  rewrite set_string10_dec. cbn [bind]. change (DIHashFromPoseidon =? DIHashFromPoseidon) with true. cbn match. now rewrite Min1024_val.
Qed.
Lemma bench_nonneg : forall n, Forall (fun x => 0 <= x) (bench_reps poseidon n).
Proof using poseidon pos.
  clear is_prime sha. intros n. apply Forall_forall. intros x Hx. unfold bench_reps in Hx. apply in_map_iff in Hx. destruct Hx as (i & <- & _).
  pose proof (pos [Z.of_nat i mod fr_modulus]). assert (0 < 2 ^ 1023) by (apply Z.pow_pos_nonneg; lia). lia.
Qed.
Lemma bench_length : forall n, length (bench_reps poseidon n) = Z.to_nat n.
Proof using. intros. unfold bench_reps. now rewrite map_length, seq_length. Qed.
End Bench.

(** ** C91 *)
Definition pp_of (setup : Setup) : PublicParameters := {| ppN := sN setup; ppG := sG setup; ppH := sH setup |}.
Definition coins_ok (c : basic_coins) : Prop := 0 <= bc_r c /\ 0 <= bc_k c /\ 0 <= bc_rhox c /\ 0 <= bc_rhok c.
Lemma trusted_pp : pp_ok (pp_of TrustedSetup).
Proof.
  pose proof C24_trusted_setup as C. cbv zeta in C. unfold pp_ok, pp_of, coprime. cbn [ppN ppG ppH]. revert C.
  generalize (sN TrustedSetup), (sG TrustedSetup), (sH TrustedSetup). intros N G H (_ & _ & HG & HH & CG & CH & _).
  split; [lia|]. split; [lia|]. split; [exact CG|]. split; [lia|exact CH].
Qed.
Lemma finds_401 : forall GCD is_prime cpus, gcd_spec GCD -> (finds_on GCD is_prime cpus (4 * 100 + 1) <-> (4 <= cpus)%nat).
Proof.
  intros GCD is_prime cpus HG. unfold finds_on. change (4 * 100 + 1) with 401.
  rewrite (small_dec GCD is_prime HG 401 cpus ltac:(change (2 ^ 13) with 8192; lia) eq_refl).
  assert (E : cpus_needed 401 = Some 3) by (vm_compute; reflexivity). rewrite E. split.
  - intros (k & [= <-] & L). lia.
  - intros L. exists 3. split; [reflexivity|lia].
Qed.
Lemma draw_ret : forall N l, (exists h, In h l /\ Z.gcd h N = 1) -> exists h, draw_coprime N l = Ret h.
Proof.
  intros N l (h & I & E). induction l as [|a l IH]; [destruct I|]. cbn [draw_coprime]. destruct (Z.eqb_spec (Z.gcd a N) 1) as [|NE]; [eauto|].
  destruct I as [->|I]; [contradiction|auto].
Qed.
Lemma draw_no_panic : forall N l, draw_coprime N l <> Panic.
Proof. intros N l. induction l as [|a l IH]; [discriminate|]. cbn [draw_coprime]. destruct (_ =? _); [discriminate|exact IH]. Qed.
Lemma zkpoke_no_panic : forall sha is_prime, test_ok is_prime -> forall fuel pp u x w k rhox rhok,
  0 < ppN pp -> 0 <= x -> 0 <= k -> 0 <= rhox -> 0 <= rhok -> ZKPoKEProve sha is_prime fuel pp u x w k rhox rhok <> Panic.
Proof.
  intros sha is_prime Hp fuel pp u x w k rhox rhok HN Hx Hk Hrx Hrk. unfold ZKPoKEProve. destruct (negb _); [discriminate|].
  rewrite !MultiExp_up by assumption. cbn [bind].
  destruct (GetIntChallenge _ _) as [c t1]. unfold GetPrimeChallenge.
  destruct (FS_HashToPrime sha is_prime fuel (info t1) _) as [l| |] eqn:C1; cbn [bind]; [| |discriminate].
  - apply fs_prime_ret in C1. destruct C1 as [C1 _]. apply Hp in C1. rewrite !div_mod_pos by lia. cbn [bind].
    rewrite MultiExp_up by assumption. discriminate.
  - exfalso. revert C1. assert (NP : forall f v l, fs_loop sha is_prime f v l <> Panic).
    { induction f; intros v l'; cbn [fs_loop]; [discriminate|]. destruct (is_prime v); [discriminate|apply IHf]. }
    apply NP.
Qed.

Theorem C91_basic_zkrsa_partial : forall sha GCD is_prime poseidon cpus TS, gcd_spec GCD -> squares_on GCD is_prime cpus TS ->
  test_ok is_prime -> (forall l, 0 <= poseidon l) ->
  forall fuel setup size c, pp_ok (pp_of setup) -> 0 <= size -> coins_ok c ->
  let run := TestBasicZKrsa_size sha is_prime poseidon fuel TS setup size c in
  (* the squares for 4 * 100 + 1 are found exactly on machines with at least four CPUs *)
  (finds_on GCD is_prime cpus (4 * 100 + 1) <-> (4 <= cpus)%nat) /\
  (* then the driver ends: both verifications pass *)
  ((exists v, TS (4 * 100 + 1) = Ret v) -> (exists h, In h (bc_h c) /\ Z.gcd h (sN setup) = 1) ->
   ZKPoKEProve sha is_prime fuel (pp_of setup) (sG setup) 666 (sG setup ^ 666 mod sN setup) (bc_k c) (bc_rhox c) (bc_rhok c) <> OutOfFuel ->
   run = Ret (sG setup ^ (bc_r c * product (bench_reps poseidon size)) mod sN setup)) /\
  (* and never panics *)
  (TS (4 * 100 + 1) <> Panic -> run <> Panic).
Proof.
  intros sha GCD is_prime poseidon cpus TS HG HT Hp Hpos fuel setup size c Hpp Hs (Hr & Hk & Hrx & Hrk) run. subst run.
  split; [now apply finds_401|].
  assert (HN : 1 < sN setup) by apply Hpp.
  unfold TestBasicZKrsa_size. destruct (bench_ret sha is_prime poseidon fuel size Hs) as (set & -> & _ & Hrep). cbn [bind]. rewrite Hrep. cbn [bind].
  rewrite SetProductRecursiveFast_spec. cbn [bind]. fold (pp_of setup).
  pose proof (product_nonneg _ (bench_nonneg poseidon Hpos size)) as P.
  assert (EA : AccumulateNew (AccumulateNew (sG setup) (bc_r c) (sN setup)) (product (bench_reps poseidon size)) (sN setup) =
    sG setup ^ (bc_r c * product (bench_reps poseidon size)) mod sN setup).
  { rewrite !AccumulateNew_spec by lia. now rewrite pow_mod_mul by lia. }
  rewrite EA. clear EA.
  assert (EC : exp_recv 0 (sG setup) 666 (sN setup) = sG setup ^ 666 mod sN setup) by (rewrite exp_recv_nonneg by lia; reflexivity).
  rewrite EC. change (ppG (pp_of setup)) with (sG setup).
  set (W := sG setup ^ 666 mod sN setup) in *.
  pose proof (squares_on_oracle _ _ _ _ HT) as HO.
  destruct (C36_ZKPoKE_complete sha is_prime Hp (pp_of setup) (sG setup) 666 W (bc_k c) (bc_rhox c) (bc_rhok c)
    ltac:(cbn; lia) Hk Hrx Hrk ltac:(left; lia)) as [ZV ZR].
  assert (ZN : ZKPoKEProve sha is_prime fuel (pp_of setup) (sG setup) 666 W (bc_k c) (bc_rhox c) (bc_rhok c) <> Ret None).
  { rewrite ZR. intros X. apply X. unfold is_power. cbn [pp_of ppN]. split; [apply Z.mod_pos_bound; lia|]. split; [reflexivity|lia]. }
  pose proof (zkpoke_no_panic sha is_prime Hp fuel (pp_of setup) (sG setup) 666 W (bc_k c) (bc_rhox c) (bc_rhok c)
    ltac:(cbn; lia) ltac:(lia) Hk Hrx Hrk) as ZP.
  split.
  - intros [v Ev] HD ZO. destruct (draw_ret _ _ HD) as [h ->]. cbn [bind].
    destruct (C43_AoP_complete sha GCD is_prime TS HG HO (pp_of setup) (bc_prime c) 100 (bc_aop c) v Hpp Ev) as (C & pf & -> & _ & V). cbn [bind].
    rewrite V. cbn [bind negb].
    destruct (ZKPoKEProve _ _ _ _ _ _ _ _ _ _) as [[pk|]| |] eqn:EZ; cbn [bind]; try (exfalso; congruence).
    rewrite (ZV fuel fuel pk (le_n _) EZ). reflexivity.
  - intros HTP. destruct (draw_coprime _ _) as [h| |] eqn:ED; cbn [bind]; [|exfalso; eapply draw_no_panic; exact ED|discriminate].
    destruct (TS (4 * 100 + 1)) as [v| |] eqn:Ev; [|congruence|].
    + destruct (C43_AoP_complete sha GCD is_prime TS HG HO (pp_of setup) (bc_prime c) 100 (bc_aop c) v Hpp Ev) as (C & pf & -> & _ & V). cbn [bind].
      rewrite V. cbn [bind negb].
      destruct (ZKPoKEProve _ _ _ _ _ _ _ _ _ _) as [[pk|]| |] eqn:EZ; cbn [bind]; try (exfalso; congruence); [|discriminate].
      rewrite (ZV fuel fuel pk (le_n _) EZ). discriminate.
    + unfold AoP_Prove at 1, calC at 1. destruct Hpp as (H1 & H2 & H3 & H4 & H5). rewrite (commit2_gh _ _ _) by assumption. cbn [bind].
      change (Z.shiftl 100 2 + 1) with (4 * 100 + 1). rewrite Ev. discriminate.
Qed.

(** on a machine with up to three CPUs the driver does not end, for the real setup and all coins *)
Lemma basic_stuck : forall sha GCD is_prime poseidon TS fuel setup size c acc cpus, gcd_spec GCD -> squares_on GCD is_prime cpus TS ->
  (cpus <= 3)%nat -> TestBasicZKrsa_size sha is_prime poseidon fuel TS setup size c <> Ret acc.
Proof.
  intros sha GCD is_prime poseidon TS fuel setup size c acc cpus HG HT Hc. unfold TestBasicZKrsa_size.
  destruct (GenBenchSet _) as [set| |]; cbn [bind]; try discriminate.
  destruct (GenRepresentatives _ _ _ _ _ _) as [rep| |]; cbn [bind]; try discriminate.
  destruct (SetProductRecursiveFast rep); cbn [bind]; try discriminate.
  destruct (draw_coprime _ _); cbn [bind]; try discriminate.
  unfold AoP_Prove at 1. destruct (calC _ _ _); cbn [bind]; try discriminate.
  change (Z.shiftl 100 2 + 1) with (4 * 100 + 1).
  destruct (TS (4 * 100 + 1)) as [v| |] eqn:Ev; cbn [bind]; try discriminate.
  exfalso. destruct (HT _ _ Ev) as [_ CR]. assert (F : finds_on GCD is_prime cpus (4 * 100 + 1)) by (now exists v).
  apply finds_401 in F; [lia|assumption].
Qed.
Theorem C91_three_cpus : forall cpus, (cpus <= 3)%nat ->
  forall sha GCD is_prime poseidon TS fuel c acc, gcd_spec GCD -> squares_on GCD is_prime cpus TS ->
  TestBasicZKrsa sha is_prime poseidon fuel TS TrustedSetup c <> Ret acc.
Proof. intros cpus Hc sha GCD is_prime poseidon TS fuel c acc HG HT. exact (basic_stuck sha GCD is_prime poseidon TS fuel TrustedSetup 65536 c acc cpus HG HT Hc). Qed.
Theorem C91_basic_zkrsa_refuted : exists cpus, (0 < cpus)%nat /\
  forall sha GCD is_prime poseidon TS fuel c acc, gcd_spec GCD -> squares_on GCD is_prime cpus TS ->
  TestBasicZKrsa sha is_prime poseidon fuel TS TrustedSetup c <> Ret acc.
Proof. exists 3%nat. split; [lia|]. intros. now apply (C91_three_cpus 3 (le_n _) sha GCD). Qed.

(** a machine with four CPUs, and a small setup *)
Definition basic_toy_coins : basic_coins :=
  {| bc_r := 3; bc_prime := 5; bc_h := [7; 11; 2]; bc_aop := {| ac_r3 := (1, 2, 3); ac_m3 := (4, 5, 6); ac_s3 := (7, 8, 9); ac_s := 10 |};
     bc_junk := 0; bc_k := 4; bc_rhox := 2; bc_rhok := 6 |}.
Example C91_case : exists TS, squares_on gauss_gcd toy_prime 4 TS /\
  TestBasicZKrsa_size toy_sha toy_prime toy_poseidon 300 TS (MkSetup 77 4 9) 3 basic_toy_coins =
    Ret (4 ^ (3 * product (bench_reps toy_poseidon 3)) mod 77) /\
  pp_ok (pp_of TrustedSetup).
Proof.
  destruct (proj2 (finds_401 gauss_gcd toy_prime 4 gauss_gcd_spec) (le_n _)) as [v Hv].
  assert (HT : squares_on gauss_gcd toy_prime 4 (fun n => if n =? 4 * 100 + 1 then Ret v else OutOfFuel)).
  { intros n w. destruct (Z.eqb_spec n (4 * 100 + 1)) as [->|]; [|discriminate]. intros [= <-]. split; [lia|exact Hv]. }
  eexists. split; [exact HT|]. split; [|exact trusted_pp].
  apply (C91_basic_zkrsa_partial toy_sha gauss_gcd toy_prime toy_poseidon 4 _ gauss_gcd_spec HT toy_prime_ok).
  - intros l. unfold toy_poseidon. apply Z.mod_pos_bound. reflexivity.
  - unfold pp_ok, pp_of, coprime. cbn. lia.
  - lia.
  - repeat split; cbn; lia.
  - exists v. reflexivity.
  - exists 2. split; [cbn; auto|reflexivity].
  - vm_compute. discriminate.
Qed.

(** ** C93: the membership experiments *)
(** proofs of a randomised accumulator: the i-th is that of the i-th element *)
Definition proofs_of (N G r : Z) (set proofs : list Z) : Prop :=
  length proofs = length set /\
  (forall i w, nth_error proofs i = Some w -> w = G ^ (r * product (without i set)) mod N) /\
  (forall i w x, nth_error proofs i = Some w -> nth_error set i = Some x -> verifies N w x (G ^ (r * product set) mod N)).

(** option 2 of the menu: each of the hundred values computed is the accumulator, and the printed proof size
    is at most that of the modulus *)
Theorem C93_membership_verify : forall sha is_prime poseidon, (forall l, 0 <= poseidon l) ->
  forall fuel setup, 0 < sN setup -> 0 <= sG setup < sN setup ->
  exists checks size, TestMembershipVerify sha is_prime poseidon fuel setup =
    Ret (sG setup ^ product (bench_reps poseidon 10) mod sN setup, checks, size) /\
    checks = repeat (sG setup ^ product (bench_reps poseidon 10) mod sN setup) 100 /\
    size = bit_len (sG setup ^ product (without 0 (bench_reps poseidon 10)) mod sN setup) /\
    0 <= size <= bit_len (sN setup).
Proof.
  intros sha is_prime poseidon Hpos fuel setup HN HG. unfold TestMembershipVerify.
  destruct (bench_ret sha is_prime poseidon fuel 10 ltac:(lia)) as (set & -> & HL & HR). cbn [bind]. rewrite HR. cbn [bind].
  assert (NE : set <> []) by (intros ->; cbn in HL; lia).
  destruct (proj1 (C13_entry_points sha is_prime poseidon 1 fuel set DIHashFromPoseidon setup (le_n _) Hpos HN HG) _ HR NE)
    as (proofs & W & -> & _). cbn [bind].
  destruct W as [WL WE]. pose proof (bench_nonneg poseidon Hpos 10) as P. pose proof (bench_length poseidon 10) as BL. clear HR.
  revert WL WE P BL. generalize (bench_reps poseidon 10). intros rep WL WE P BL. change (Z.to_nat 10) with 10%nat in BL.
  destruct rep as [|x rest]; [discriminate BL|]. destruct proofs as [|w proofs]; [discriminate WL|]. specialize (WE 0%nat w eq_refl).
  inversion P as [|? ? Px Prest E]. cbn [without] in *.
  assert (EV : AccumulateNew w x (sN setup) = sG setup ^ product (x :: rest) mod sN setup).
  { rewrite AccumulateNew_spec by lia. rewrite WE, pow_mod_mul; [|now apply product_nonneg|lia]. rewrite product_cons. now rewrite Z.mul_comm. }
  rewrite (map_outcome_Ret _ _ _ (fun _ => sG setup ^ product (x :: rest) mod sN setup)).
  2:{ intros [] _. unfold go_index. cbn [nth_error deref bind]. now rewrite EV. }
  unfold go_index. cbn [nth_error deref bind]. rewrite <- WE.
  eexists _, _. split; [reflexivity|]. split.
  - generalize (sG setup ^ product (x :: rest) mod sN setup). intros a. reflexivity.
  - split; [reflexivity|]. split; [apply bit_len_nonneg|]. apply bit_len_le_iff; [apply bit_len_nonneg|].
    pose proof (bit_len_bound (sN setup)) as B. assert (0 <= w < sN setup) by (rewrite WE; apply Z.mod_pos_bound; lia). lia.
Qed.
Example C93_verify_case : TestMembershipVerify toy_sha toy_prime toy_poseidon 1 (MkSetup 1081 4 9) = Ret (972, repeat 972 100, 10) /\ bit_len 1081 = 11.
Proof. vm_compute. split; reflexivity. Qed.

Lemma wit_proofs : forall N G r set, 0 < N -> 0 <= r -> Forall (fun x => 0 <= x) set -> proofs_of N G r set (wit G N r set).
Proof.
  intros N G r set HN Hr Hs. split; [apply wit_length|]. split; [intros i w Hw; now apply wit_nth in Hw|].
  intros i w x Hw Hx. apply wit_nth in Hw. subst w. unfold verifies.
  assert (P : 0 <= product (without i set)) by (apply product_nonneg, without_Forall; assumption).
  assert (Hx0 : 0 <= x) by (revert Hs; rewrite Forall_forall; intros F; apply F; eapply nth_error_In; eauto).
  rewrite pow_mod_mul by nia. now rewrite <- Z.mul_assoc, (without_product set i x Hx).
Qed.
Lemma wit_first : forall N G r set, set <> [] -> go_index (wit G N r set) 0 = Ret (G ^ (r * product (without 0 set)) mod N).
Proof.
  intros N G r set H. unfold go_index. destruct (nth_error (wit G N r set) 0) as [w|] eqn:E.
  - apply wit_nth in E. now subst.
  - apply nth_error_None in E. rewrite wit_length in E. destruct set; [congruence|cbn in E; lia].
Qed.

(** with a positive limit (option 5 of the menu passes 5) the goroutines lose the randomizer: these are the
    proofs of the accumulator without it *)
Theorem C93_precompute_partial : forall sha is_prime poseidon, (forall l, 0 <= poseidon l) ->
  forall fuel setup r n limit, 0 < sN setup -> 0 <= r -> 0 <= n ->
  let N := sN setup in let G := sG setup in let rep := bench_reps poseidon n in
  (4 <= n ->
   (exists t k proofs b, TestRSAMembershipPreCompute sha is_prime poseidon fuel setup r n = Ret (t, k) /\
      always_returns (pm_expand N) t proofs /\ k proofs = Ret (proofs, b) /\ proofs_of N G r rep proofs) /\
   (exists t k proofs b, TestRSAMembershipPreComputeDIParallel sha is_prime poseidon fuel setup r n limit = Ret (t, k) /\
      always_returns (pm_expand N) t proofs /\ k proofs = Ret (proofs, b) /\ proofs_of N G (if limit <=? 0 then r else 1) rep proofs)) /\
  (n < 4 ->
   (exists t k, TestRSAMembershipPreCompute sha is_prime poseidon fuel setup r n = Ret (t, k) /\ may_crash (pm_expand N) t) /\
   (exists t k, TestRSAMembershipPreComputeDIParallel sha is_prime poseidon fuel setup r n limit = Ret (t, k) /\ may_crash (pm_expand N) t)).
Proof.
  intros sha is_prime poseidon Hpos fuel setup r n limit HN Hr Hn N G rep.
  unfold TestRSAMembershipPreCompute, TestRSAMembershipPreComputeDIParallel.
  destruct (bench_ret sha is_prime poseidon fuel n Hn) as (set & -> & HL & HR). cbn [bind]. rewrite HR. cbn [bind].
  pose proof (bench_nonneg poseidon Hpos n) as P. pose proof (bench_length poseidon n) as BL. fold rep in P, BL |- *. clear HR.
  assert (SL : go_slice rep 0 (Z.to_nat n) = Ret rep).
  { unfold go_slice. rewrite BL. rewrite Nat.leb_refl. cbn [Nat.leb andb]. rewrite Nat.sub_0_r. cbn [skipn]. rewrite <- BL at 1. now rewrite firstn_all. }
  rewrite SL. cbn [bind]. clearbody rep.
  split; intros H4.
  - assert (L4 : (4 <= length rep)%nat) by lia. assert (NE : rep <> []) by (intros ->; cbn in L4; lia).
    assert (GO : forall lim, always_returns (pm_expand N) (PMRandomizer G r rep lim) (wit G N (if lim <=? 0 then r else 1) rep)).
    { intros lim. apply (pm_always_returns N (PMRandomizer G r rep lim)); [assumption|]. split; [exact P|cbn; auto]. }
    split.
    + eexists _, _, _, _. split; [reflexivity|]. split; [exact (GO 0)|]. cbn [Z.leb Z.compare]. rewrite wit_first by assumption. cbn [bind].
      split; [reflexivity|]. now apply wit_proofs.
    + eexists _, _, _, _. split; [reflexivity|]. split; [exact (GO limit)|]. rewrite wit_first by assumption. cbn [bind].
      split; [reflexivity|]. apply wit_proofs; [assumption| |assumption]. destruct (limit <=? 0); lia.
  - assert (L4 : (length rep < 4)%nat) by lia.
    split; eexists _, _; (split; [reflexivity|]); now apply (C10_randomizer_partial N G r rep _ HN Hr P).
Qed.
Definition flat (_ : list Z) : Z := 6.
Lemma lost_randomizer : 3 ^ (1 * product (without 0 (bench_reps flat 4)) * (6 + 2 ^ 1023)) mod 101 <> 3 ^ (13 * product (bench_reps flat 4)) mod 101.
Proof.
  rewrite <- (powmod_spec 3 (1 * product (without 0 (bench_reps flat 4)) * (6 + 2 ^ 1023)) 101) by (vm_compute; congruence).
  rewrite <- (powmod_spec 3 (13 * product (bench_reps flat 4)) 101) by (vm_compute; congruence).
  vm_compute. intros H. discriminate H.
Qed.
(** four users, limit 5: no proof opens the randomised accumulator *)
Theorem C93_precompute_refuted : exists sha is_prime poseidon fuel setup r n limit t k proofs w x,
  (forall l, 0 <= poseidon l) /\ 0 < sN setup /\ 0 < r /\ 4 <= n /\ limit = 5 /\
  TestRSAMembershipPreComputeDIParallel sha is_prime poseidon fuel setup r n limit = Ret (t, k) /\
  always_returns (pm_expand (sN setup)) t proofs /\ In (w, x) (combine proofs (bench_reps poseidon n)) /\
  ~ verifies (sN setup) w x (sG setup ^ (r * product (bench_reps poseidon n)) mod sN setup).
Proof.
  assert (PS : forall l, 0 <= flat l) by (intros; unfold flat; lia).
  destruct (proj1 (C93_precompute_partial toy_sha toy_prime flat PS 1 (MkSetup 101 3 5) 13 4 5 ltac:(cbn; lia) ltac:(lia) ltac:(lia)) ltac:(lia))
    as [_ (t & k & proofs & b & E & A & _ & (L & W & _))].
  cbn [Z.leb Z.compare] in W. rewrite bench_length in L. change (Z.to_nat 4) with 4%nat in L.
  destruct proofs as [|w proofs]; [discriminate L|]. specialize (W 0%nat w eq_refl).
  exists toy_sha, toy_prime, flat, 1%nat, (MkSetup 101 3 5), 13, 4, 5, t, k, (w :: proofs), w, (6 + 2 ^ 1023).
  split; [exact PS|]. split; [cbn; lia|]. split; [lia|]. split; [lia|]. split; [reflexivity|]. split; [exact E|]. split; [exact A|].
  split; [left; reflexivity|]. cbn [sN sG] in *. unfold verifies. rewrite W.
  rewrite pow_mod_mul; [exact lost_randomizer|vm_compute; congruence..].
Qed.

(** TestDifferentGroupingSize: how many users are served, and with what *)
Lemma single_ret : forall sha is_prime poseidon, (forall l, 0 <= poseidon l) -> forall fuel setup r n, 0 < sN setup -> 0 <= r -> 0 <= n ->
  preComputeDISingleThread sha is_prime poseidon fuel setup r n =
  if n <? 4 then Panic else Ret (wit (sG setup) (sN setup) r (bench_reps poseidon n)).
Proof.
  intros sha is_prime poseidon Hpos fuel setup r n HN Hr Hn. unfold preComputeDISingleThread.
  destruct (bench_ret sha is_prime poseidon fuel n Hn) as (set & -> & HL & HR). cbn [bind]. rewrite HR. cbn [bind].
  pose proof (bench_nonneg poseidon Hpos n) as P. pose proof (bench_length poseidon n) as BL.
  destruct (Z.ltb_spec n 4).
  - apply (C09_randomizer (sG setup) r (sN setup) (bench_reps poseidon n)); auto. lia.
  - apply Randomizer_spec; auto. lia.
Qed.
Theorem C93_grouping : forall sha is_prime poseidon, (forall l, 0 <= poseidon l) ->
  forall fuel setup rs n, 0 < sN setup -> (forall i, 0 <= rs i) ->
  let run := TestDifferentGroupingSize sha is_prime poseidon fuel setup rs n in
  (run = Panic <-> 0 <= n < 4) /\
  (n < 0 \/ 2 ^ 18 < n -> run = Ret []) /\
  (4 <= n -> exists groups, run = Ret groups /\ Z.of_nat (length groups) = 2 ^ 18 / n /\
     (forall i g, nth_error groups i = Some g -> proofs_of (sN setup) (sG setup) (rs i) (bench_reps poseidon n) g) /\
     Z.of_nat (length (List.concat groups)) = n * (2 ^ 18 / n) /\
     (Z.of_nat (length (List.concat groups)) = 2 ^ 18 <-> (n | 2 ^ 18))).
Proof.
  intros sha is_prime poseidon Hpos fuel setup rs n HN Hrs run. subst run. unfold TestDifferentGroupingSize.
  change (2 ^ 18) with 262144. change (262144 ÷ n) with (Z.quot 262144 n).
  destruct (Z.eqb_spec n 0) as [->|N0]. { split; [split; [lia|reflexivity]|]. split; [lia|lia]. }
  assert (NEG : n < 0 \/ 262144 < n -> Z.to_nat (Z.quot 262144 n) = 0%nat).
  { intros [H|H]; [|rewrite Z.quot_small; [reflexivity|lia]].
    pose proof (Z.quot_opp_r 262144 n ltac:(lia)) as Q. pose proof (Z.quot_pos 262144 (- n) ltac:(lia) ltac:(lia)). lia. }
  assert (RUN : 4 <= n -> map_outcome (fun i => preComputeDISingleThread sha is_prime poseidon fuel setup (rs i) n) (seq 0 (Z.to_nat (Z.quot 262144 n))) =
    Ret (map (fun i => wit (sG setup) (sN setup) (rs i) (bench_reps poseidon n)) (seq 0 (Z.to_nat (Z.quot 262144 n))))).
  { intros H. apply map_outcome_Ret. intros i _. rewrite single_ret by (auto; lia). destruct (Z.ltb_spec n 4); [lia|reflexivity]. }
  split; [|split].
  - split.
    + intros H. destruct (Z_lt_dec n 0) as [L|L]; [rewrite (NEG (or_introl L)) in H; discriminate H|].
      destruct (Z_lt_dec n 4); [lia|]. rewrite RUN in H by lia. discriminate H.
    + intros H. assert (Q : exists k, Z.to_nat (Z.quot 262144 n) = S k).
      { rewrite Z.quot_div_nonneg by lia. pose proof (Z.div_le_lower_bound 262144 n 1 ltac:(lia) ltac:(lia)).
        exists (Z.to_nat (262144 / n) - 1)%nat. lia. }
      destruct Q as [k ->]. cbn [seq map_outcome]. rewrite single_ret by (auto; lia). destruct (Z.ltb_spec n 4); [reflexivity|lia].
  - intros H. rewrite (NEG H). reflexivity.
  - intros H. rewrite RUN by assumption. eexists. split; [reflexivity|]. rewrite Z.quot_div_nonneg by lia.
    pose proof (Z.div_pos 262144 n ltac:(lia) ltac:(lia)) as DP.
    split; [rewrite map_length, seq_length; lia|]. split.
    { intros i g Hg. rewrite nth_error_map in Hg. destruct (nth_error (seq 0 (Z.to_nat (262144 / n))) i) as [j|] eqn:E; [|discriminate].
      cbn in Hg. injection Hg as <-. assert (j = i) as ->.
      { assert (i < length (seq 0 (Z.to_nat (262144 / n))))%nat by (apply nth_error_Some; congruence). rewrite seq_length in *.
        apply (nth_error_nth _ _ 0%nat) in E. rewrite seq_nth in E by assumption. lia. }
      apply wit_proofs; auto. now apply bench_nonneg. }
    assert (LC : forall l, Z.of_nat (length (List.concat (map (fun i => wit (sG setup) (sN setup) (rs i) (bench_reps poseidon n)) l))) = n * Z.of_nat (length l)).
    { induction l as [|i l IH]; [cbn; lia|]. cbn [map List.concat length]. rewrite app_length, wit_length, bench_length. lia. }
    rewrite LC, seq_length, Z2Nat.id by assumption. split; [reflexivity|]. split.
    + intros E. exists (262144 / n). lia.
    + intros D. symmetry. rewrite <- Z.divide_div_mul_exact by (auto; lia). rewrite Z.mul_comm, Z.div_mul by lia. reflexivity.
Qed.
(** with the sizes TestDifferentGroupSize uses, all 2^18 users are served *)
Theorem C93_group_sizes : group_sizes = map (fun i => 2 ^ i) [10; 12; 14; 16; 18] /\
  forall sha is_prime poseidon, (forall l, 0 <= poseidon l) -> forall fuel setup rs, 0 < sN setup -> (forall i, 0 <= rs i) ->
  forall n, In n group_sizes -> exists groups, TestDifferentGroupingSize sha is_prime poseidon fuel setup rs n = Ret groups /\
    Z.of_nat (length (List.concat groups)) = 2 ^ 18.
Proof.
  split; [reflexivity|]. intros sha is_prime poseidon Hpos fuel setup rs HN Hrs n Hn.
  assert (D : 4 <= n /\ (n | 2 ^ 18)).
  { cbn [group_sizes In] in Hn. destruct Hn as [<-|[<-|[<-|[<-|[<-|[]]]]]]; (split; [lia|]); apply Z.mod_divide; try lia; reflexivity. }
  destruct D as [H4 D]. destruct (proj2 (proj2 (C93_grouping sha is_prime poseidon Hpos fuel setup rs n HN Hrs)) H4) as (g & E & _ & _ & _ & I).
  exists g. split; [exact E|]. now apply I.
Qed.
Example C93_grouping_case : (1024 | 2 ^ 18) /\ ~ (1000 | 2 ^ 18) /\ 1000 * (2 ^ 18 / 1000) = 262000.
Proof.
  split; [exists 256; reflexivity|]. split; [|reflexivity]. intros D. apply Z.mod_divide in D; [|lia]. discriminate D.
Qed.

(** the benchmarks: all five compute the accumulator and the witnesses of the same set, randomised in one case *)
Theorem C93_benches : forall sha is_prime poseidon, (forall l, 0 <= poseidon l) ->
  forall cpus fuel setup r n, (1 <= cpus)%nat -> 0 < sN setup -> 0 <= sG setup < sN setup -> 0 <= r -> 0 < n ->
  let N := sN setup in let G := sG setup in let rep := bench_reps poseidon n in let acc := G ^ product rep mod N in
  exists proofs, witnesses G N rep proofs /\
    ManualBench sha is_prime poseidon fuel setup n = Ret (acc, proofs) /\
    ManualBenchIter sha is_prime poseidon fuel setup n = Ret (acc, proofs) /\
    (exists t k, ManualBenchParallel sha is_prime poseidon fuel setup cpus n = Ret (t, k) /\ always_returns (pm_expand N) t proofs /\ k proofs = Ret (acc, proofs)) /\
    (exists c k, ManualBenchIterParallel sha is_prime poseidon fuel setup cpus n = Ret (c, k) /\
       call_ends c (fun v => v = map Some proofs) /\ k (map Some proofs) = Ret (acc, map Some proofs)) /\
    exists zproofs, ManualBenchZKAcc sha is_prime poseidon fuel setup r n = Ret (G ^ (r * product rep) mod N, zproofs) /\
      length zproofs = length rep /\
      forall i w x, nth_error zproofs i = Some w -> nth_error rep i = Some x -> verifies N w x (G ^ (r * product rep) mod N).
Proof.
  intros sha is_prime poseidon Hpos cpus fuel setup r n Hc HN HG Hr Hn N G rep acc.
  unfold ManualBench, ManualBenchIter, ManualBenchParallel, ManualBenchIterParallel, ManualBenchZKAcc.
  destruct (bench_ret sha is_prime poseidon fuel n ltac:(lia)) as (set & -> & HL & HR). cbn [bind].
  assert (NE : set <> []) by (intros ->; cbn in HL; lia).
  destruct (proj1 (C13_entry_points sha is_prime poseidon cpus fuel set DIHashFromPoseidon setup Hc Hpos HN HG) _ HR NE)
    as (proofs & W & S1 & S2 & S3 & S4).
  exists proofs. split; [exact W|]. split; [exact S1|]. split; [exact S2|]. split; [exact S3|]. split; [exact S4|].
  destruct (proj2 (C16_ZKAccumulate_strings sha is_prime poseidon fuel r set DIHashFromPoseidon setup Hpos HN Hr) _ HR NE)
    as (a & zp & E & -> & L & V). exists zp. split; [exact E|]. split; [|exact V]. rewrite L. unfold rep. rewrite bench_length. lia.
Qed.
Example C93_benches_case : ManualBench toy_sha toy_prime toy_poseidon 1 (MkSetup 1081 4 9) 3 = Ret (974, [338; 901; 929]).
Proof. vm_compute. reflexivity. Qed.

(** integers.go: the printed lengths are exact; the two ways of multiplying agree; TestProduct prints a zero first *)
Theorem C93_products : forall sha is_prime poseidon, (forall l, 0 <= poseidon l <= 2 ^ 256) ->
  forall fuel setup n, 0 < sN setup -> 0 <= n < 2 ^ 765 ->
  TestProduct_size sha is_prime poseidon fuel n = Ret (0, 1023 * n + 1) /\
  TestProduct3_size sha is_prime poseidon fuel n = Ret (1023 * n + 1, 1023 * n + 1) /\
  (0 < n -> TestProduct2_size sha is_prime poseidon fuel n = Ret (1023 * n + 1, 1023 * n + 1)) /\
  (n = 0 -> TestProduct2_size sha is_prime poseidon fuel n = Panic) /\
  TestMembership_size sha is_prime poseidon fuel setup n = Ret (sG setup ^ product (bench_reps poseidon n) mod sN setup).
Proof.
  intros sha is_prime poseidon Hpos fuel setup n HN Hn. assert (P0 : forall l, 0 <= poseidon l) by (intros l; apply Hpos).
  assert (DI : Forall di_element (bench_reps poseidon n)).
  { apply Forall_forall. intros x Hx. unfold bench_reps in Hx. apply in_map_iff in Hx. destruct Hx as (i & <- & _).
    pose proof (Hpos [Z.of_nat i mod fr_modulus]). unfold di_element. split; [apply Z.le_sub_le_add_r; rewrite Z.sub_diag; apply H|].
    rewrite Z.add_comm. apply Z.add_le_mono_l, H. }
  pose proof (bench_length poseidon n) as BL. pose proof (bench_nonneg poseidon P0 n) as BN.
  assert (B : bit_len (product (bench_reps poseidon n)) = 1023 * n + 1).
  { apply bit_len_char; [lia|]. split.
    - pose proof (product_between (2 ^ 1023) (2 ^ 1023 + 2 ^ 256) _ ltac:(apply Z.pow_nonneg; lia) DI) as [Q _]. rewrite BL, Z2Nat.id in Q by lia.
      rewrite Z.pow_mul_r by lia. exact Q.
    - pose proof (di_product _ DI) as Q. rewrite BL, Z2Nat.id in Q by lia. apply Q. apply Hn. }
  unfold TestProduct_size, TestProduct2_size, TestProduct3_size, TestMembership_size.
  destruct (bench_ret sha is_prime poseidon fuel n (proj1 Hn)) as (set & -> & HL & HR). cbn [bind]. rewrite HR. cbn [bind].
  rewrite SetProductRecursive_spec, SetProductRecursiveFast_spec. cbn [bind]. rewrite B.
  split; [reflexivity|]. split; [reflexivity|]. split; [|split].
  - intros Hp. destruct (bench_reps poseidon n) as [|x l] eqn:E; [cbn in BL; lia|].
    rewrite (map_outcome_Ret _ _ _ (fun _ => ediv (product (x :: l)) x)); [reflexivity|]. intros [] _. unfold go_index. cbn [nth_error deref bind].
    inversion DI as [|? ? D _]; subst. unfold di_element in D. assert (0 < 2 ^ 1023) by (apply Z.pow_pos_nonneg; lia).
    unfold go_div. destruct (Z.eqb_spec x 0); [lia|reflexivity].
  - intros ->. reflexivity.
  - rewrite AccumulateNew_spec; [reflexivity|assumption|now apply product_nonneg].
Qed.
Example C93_products_case : TestProduct3_size toy_sha toy_prime flat 1 5 = Ret (5116, 5116).
Proof. vm_compute. reflexivity. Qed.

Theorem C93_first_layer : forall sha is_prime poseidon, (forall l, 0 <= poseidon l) ->
  forall fuel setup n, 0 < sN setup -> 0 <= sG setup < sN setup -> 0 < n ->
  exists t proofs, TestFirstLayerPercentage_size sha is_prime poseidon fuel setup n = Ret t /\
    always_returns (pm_expand (sN setup)) t proofs /\ proofs_of (sN setup) (sG setup) 1 (bench_reps poseidon n) proofs.
Proof.
  intros sha is_prime poseidon Hpos fuel setup n HN HG Hn. unfold TestFirstLayerPercentage_size.
  destruct (bench_ret sha is_prime poseidon fuel n ltac:(lia)) as (set & -> & HL & HR). cbn [bind]. rewrite HR. cbn [bind].
  pose proof (bench_nonneg poseidon Hpos n) as P. pose proof (bench_length poseidon n) as BL.
  eexists _, _. split; [reflexivity|]. split.
  - apply (pm_always_returns (sN setup) (PMParallel (sG setup) (bench_reps poseidon n) 2)); [assumption|]. split; [exact P|].
    split; [now right|]. cbn. intros E. rewrite E in BL. cbn in BL. lia.
  - apply wit_proofs; [assumption|lia|exact P].
Qed.

Print Assumptions C91_basic_zkrsa_partial.
Print Assumptions C91_three_cpus.
Print Assumptions C91_basic_zkrsa_refuted.
Print Assumptions C93_membership_verify.
Print Assumptions C93_precompute_partial.
Print Assumptions C93_precompute_refuted.
Print Assumptions C93_grouping. Print Assumptions C93_group_sizes.
Print Assumptions C93_benches.
Print Assumptions C93_products.
Print Assumptions C93_first_layer.
