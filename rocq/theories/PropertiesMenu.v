(** Theorems for properties C94 and C95: whole runs of main.go on the directory of key files. *)
From Coq Require Import ZArith Bool Lia Ascii String List.
From Verif Require Import GoBig GoBigFacts Spec AccModel AccFacts AccProofs StrFacts HashModel HashProofs FSModel FSProofs CircuitModel CircuitProofs
  PropertiesCircuit ForkJoin ParModel ParProofs ParIterModel AccParModel PokeModel PokeProofs SquaresModel RangeModel PropertiesAcc PropertiesHash
  PropertiesPoke KeysModel PropertiesKeys ExperimentModel PropertiesExperiments DriverModel PropertiesDrivers.
Import ListNotations.
Open Scope Z_scope.

(** ** Specification *)
(** 9 runs everything, in the order of the menu; anything but 1 to 6 and 9 nothing; one update for 64 users *)
Theorem C94_menu : 
  menu (Some 9) = List.concat (map (fun i => menu (Some i)) [1; 2; 3; 4; 5; 6]) /\
  (forall i, menu i <> [] <-> exists z, i = Some z /\ (1 <= z <= 6 \/ z = 9)) /\
  (forall i n k, In (ANotus n k) (menu i) \/ In (ANotusParallel n k) (menu i) -> n = 64 * k).
Proof.
  split; [reflexivity|]. split.
  - intros [z|]; cbn [menu]; [|split; [congruence|intros (z & H & _); discriminate]].
    destruct (Z.eqb_spec z 1) as [->|]; [split; [intros _; exists 1; split; [reflexivity|lia]|discriminate]|].
    destruct (Z.eqb_spec z 2) as [->|]; [split; [intros _; exists 2; split; [reflexivity|lia]|discriminate]|].
    destruct (Z.eqb_spec z 3) as [->|]; [split; [intros _; exists 3; split; [reflexivity|lia]|discriminate]|].
    destruct (Z.eqb_spec z 4) as [->|]; [split; [intros _; exists 4; split; [reflexivity|lia]|discriminate]|].
    destruct (Z.eqb_spec z 5) as [->|]; [split; [intros _; exists 5; split; [reflexivity|lia]|discriminate]|].
    destruct (Z.eqb_spec z 6) as [->|]; [split; [intros _; exists 6; split; [reflexivity|lia]|discriminate]|].
    destruct (Z.eqb_spec z 9) as [->|]; [split; [intros _; exists 9; split; [reflexivity|lia]|discriminate]|].
    split; [congruence|]. intros (y & [= <-] & H). lia.
  - intros i n k H. assert (I : exists j, In j [1; 2; 3; 4; 5; 6; 9] /\ (In (ANotus n k) (menu (Some j)) \/ In (ANotusParallel n k) (menu (Some j)))).
    { destruct i as [z|]; [|cbn in H; tauto]. exists z. split; [|exact H]. destruct (Z.eq_dec z 9) as [->|]; [cbn; tauto|].
      destruct (Z_le_dec 1 z), (Z_le_dec z 6); [cbn; lia|exfalso..]; unfold menu in H;
        repeat (match goal with H : context [?a =? ?b] |- _ => destruct (Z.eqb_spec a b); [lia|] end); cbn in H; tauto. }
    destruct I as (j & J & I). clear H.
    assert (F : forallb (fun j => forallb (fun a => match a with ANotus n k | ANotusParallel n k => n =? 64 * k | _ => true end) (menu (Some j))) [1; 2; 3; 4; 5; 6; 9] = true)
      by (vm_compute; reflexivity).
    rewrite forallb_forall in F. specialize (F j J). rewrite forallb_forall in F. destruct I as [I|I]; apply F in I; now apply Z.eqb_eq.
Qed.

(** the sizes, as the comments of the source give them: powers of two *)
Theorem C94_menu_sizes :
  menu (Some 1) = [APoKE; AMultiSwap 10; AContract 10; AContract2 10] /\ menu (Some 2) = [AVerify] /\
  menu (Some 3) = map (fun i => ANotus (2 ^ i) (2 ^ (i - 6))) [14; 15; 16] /\
  menu (Some 4) = map (fun i => APreCompute (2 ^ i)) [10; 12; 14; 16; 18] /\
  menu (Some 5) = map (fun i => AMultiSwap (2 ^ i)) [8; 9; 10; 11; 12; 13] ++
    [ANotusParallel (2 ^ 15) (2 ^ 9); APreComputeParallel (2 ^ 15) 5; APreComputeParallel (2 ^ 16) 5] ++
    map (fun i => ANotusParallel (2 ^ i) (2 ^ (i - 6))) [16; 17; 18; 19] /\
  menu (Some 6) = [AMerkleSwap (2 ^ 10)].
Proof. repeat split. Qed.

(** what the searches for primes need in order to end *)
Definition searches_end (sha : string -> string) (is_prime : Z -> bool) (fuel : nat) : Prop :=
  (forall s, HashToPrime sha is_prime fuel s <> OutOfFuel) /\ (forall l w, FS_HashToPrime sha is_prime fuel l w <> OutOfFuel).
(** the goroutine prover, on the inputs it is made for: one of the results its goroutines can produce, a crash only if they can crash *)
Definition prover_runs (pm : Z -> Z -> Z -> list Z -> Z -> outcome (list Z)) : Prop := forall G r N set limit,
  0 < N -> 0 <= r -> Forall (fun x => 0 <= x) set -> (4 <= length set)%nat ->
  match pm G r N set limit with
  | Ret v => may_return (pm_expand N) (PMRandomizer G r set limit) v
  | Panic => may_crash (pm_expand N) (PMRandomizer G r set limit)
  | OutOfFuel => forall v, ~ may_return (pm_expand N) (PMRandomizer G r set limit) v
  end.
(** the events a run of the program leaves behind *)
Definition events_of (setup : Setup) (a : action) (c : coins) : list event :=
  match a with
  | AMultiSwap n | ANotus _ n | ANotusParallel _ n => [ETest MultiSwap n setup (c_mid c) (c_rs c) (c_rp c)]
  | AContract n => [EContract n (c_rs c)]
  | AContract2 n => [EContract2 n setup (c_mid c) (c_rs c) (c_r2 c) (c_rp c)]
  | AMerkleSwap n => [ETest MerkleSwap n setup 0 (c_rs c) (c_rp c)]
  | _ => []
  end.
Fixpoint all_events (setup : Setup) (l : list action) (coin : nat -> coins) (i : nat) : list event :=
  match l with [] => [] | a :: l => events_of setup a (coin i) ++ all_events setup l coin (S i) end.
(** the size whose proof an action verifies, if any; the Merkle swap always passes *)
Definition verdicts (v : Z -> bool) (a : action) : list bool :=
  match a with AMultiSwap n | ANotus _ n | ANotusParallel _ n | AContract2 n => [v n] | AMerkleSwap _ => [true] | _ => [] end.
Definition action_ok (a : action) : Prop :=
  match a with
  | AMultiSwap n | AContract2 n => 2 <= n <= 2 ^ 31
  | AContract n => 1 <= n
  | ANotus n k | ANotusParallel n k => 2 <= k /\ k <= n /\ 4 <= n < 2 ^ 31
  | APreCompute n | APreComputeParallel n _ => 4 <= n
  | AMerkleSwap n => 0 <= n <= 2 ^ 32
  | APoKE | AVerify => True
  end.
Lemma menu_ok : forall i, Forall action_ok (menu i).
Proof.
  intros i. apply Forall_forall. intros a Ha.
  destruct i as [z|]; [|destruct Ha]. unfold menu in Ha.
  repeat (match type of Ha with context [?a =? ?b] => destruct (a =? b) end);
    vm_compute in Ha; repeat (destruct Ha as [<-|Ha]; [cbn; try lia; exact I|]); destruct Ha.
Qed.

(** ** Outcomes: a result with a property, no panic, and endlessness only if a search does not end *)
Definition ends {A : Type} (S : Prop) (o : outcome A) (Q : A -> Prop) : Prop :=
  match o with Ret a => Q a | Panic => False | OutOfFuel => ~ S end.
Lemma ends_bind : forall (A B : Type) (S : Prop) (o : outcome A) (f : A -> outcome B) P Q,
  ends S o P -> (forall a, P a -> ends S (f a) Q) -> ends S (bind o f) Q.
Proof. intros A B S [a| |] f P Q H K; cbn in *; auto. Qed.
Lemma ends_mono : forall (A : Type) (S : Prop) (o : outcome A) (P Q : A -> Prop), ends S o P -> (forall a, P a -> Q a) -> ends S o Q.
Proof. intros A S [a| |] P Q H K; cbn in *; auto. Qed.
Lemma ends_map : forall (A B : Type) (S : Prop) (f : A -> outcome B) l, (forall a, ends S (f a) (fun _ => True)) -> ends S (map_outcome f l) (fun _ => True).
Proof.
  intros A B S f l H. induction l as [|a l IH]; [exact I|]. cbn [map_outcome]. eapply ends_bind; [apply H|]. intros b _.
  eapply ends_bind; [apply IH|]. intros; exact I.
Qed.

Lemma prover_runs_spec : forall pm, prover_runs pm -> forall G r N set limit,
  0 < N -> 0 <= r -> Forall (fun x => 0 <= x) set -> (4 <= length set)%nat ->
  pm G r N set limit = Ret (wit G N (if limit <=? 0 then r else 1) set).
Proof.
  intros pm H G r N set limit HN Hr Hs Hl. specialize (H G r N set limit HN Hr Hs Hl).
  assert (A : always_returns (pm_expand N) (PMRandomizer G r set limit) (wit G N (if limit <=? 0 then r else 1) set)).
  { apply (pm_always_returns N (PMRandomizer G r set limit)); [assumption|]. split; [exact Hs|cbn; auto]. }
  destruct (pm G r N set limit) as [v| |].
  - f_equal. eapply always_returns_unique; eassumption.
  - exfalso. eapply always_returns_no_crash; eassumption.
  - exfalso. eapply H. apply always_may, A.
Qed.

(** ** The parts of the actions that do not touch the directory *)
Section Parts.
Variable sha : string -> string.
Variable is_prime : Z -> bool.
Variable poseidon : list Z -> Z.
Variable fuel : nat.
Variable setup : Setup.
Hypothesis Hp : positive_test is_prime.
Hypothesis Hpos : forall l, 0 <= poseidon l.
Hypothesis HN : 0 < sN setup.
Notation SE := (searches_end sha is_prime fuel).

Lemma htp_ends : forall s, ends SE (HashToPrime sha is_prime fuel s) (fun l => 0 < l).
Proof.
  intros s. destruct (HashToPrime sha is_prime fuel s) as [l| |] eqn:E; cbn.
  - eapply htp_pos; eauto.
  - eapply htp_loop_no_panic; exact E.
  - intros [H _]. exact (H s E).
Qed.
Lemma challenge_ends : forall t, ends SE (GetChallengeAndAppend sha is_prime fuel t) (fun '(l, _) => 0 < l).
Proof.
  intros t. unfold GetChallengeAndAppend, GetPrimeChallenge.
  assert (NP : forall f v l, fs_loop sha is_prime f v l <> Panic).
  { induction f; intros v l'; cbn [fs_loop]; [discriminate|]. destruct (is_prime v); [discriminate|apply IHf]. }
  destruct (FS_HashToPrime sha is_prime fuel (info t) (maxlength t)) as [l| |] eqn:E; cbn [bind ends].
  - apply fs_prime_ret in E. apply Hp, E.
  - exact (NP _ _ _ E).
  - intros [_ H]. exact (H _ _ E).
Qed.
Lemma poke_round_ends : forall num, 0 <= num -> ends SE (TestPoKE_round sha is_prime poseidon fuel setup num) (fun _ => True).
Proof.
  intros num Hn. unfold TestPoKE_round, GenBenchSet. destruct (Z.ltb_spec num 0); [lia|]. cbn [bind]. rewrite GenRep_map.
  eapply ends_bind; [apply ends_map; intros s; eapply ends_mono; [apply htp_ends|trivial]|]. intros rep _.
  rewrite SetProductRecursiveFast_spec. cbn [bind]. eapply ends_bind; [apply htp_ends|]. intros l Hl.
  rewrite div_mod_pos by (cbn in Hl; lia). cbn [bind]. rewrite go_mod_ret by lia. exact I.
Qed.
Lemma notus_ends : forall products prover,
  (forall a b, exists p, products a b = Ret p) ->
  (forall r set, 0 <= r -> Forall (fun x => 0 <= x) set -> (4 <= length set)%nat -> exists v, prover (sG setup) r (sN setup) set = Ret v) ->
  forall n k, 2 <= k -> k <= n -> 4 <= n < 2 ^ 31 ->
  ends SE (Notus sha is_prime poseidon products prover fuel setup n k) (fun _ => True).
Proof.
  intros products prover HP HQ n k H2 Hk Hn. unfold Notus.
  rewrite notus_js by lia. cbv zeta. rewrite notus_pairs_spec by lia. cbn [bind]. 
  match goal with |- context [products ?a ?b] => destruct (HP a b) as [[p1 p2] EP]; rewrite EP end. cbn [bind].
  assert (F : 300 < fr_modulus) by reflexivity. rewrite !ran_prod_spec by lia.
  rewrite !map_map. cbn [fst snd].
  replace (map (fun j => poseidon [j; j; 1000000; poseidon [j; j; 10; j]] + Min1024) (test_ids (Z.to_nat k))) with (new_entries poseidon k)
    by (unfold new_entries; now rewrite Min1024_val).
  unfold GenBenchSet at 1. unfold u32. change (2 ^ 32) with 4294967296. change (2 ^ 31) with 2147483648 in Hn.
  rewrite (Z.mod_small (n - k)) by lia. destruct (Z.ltb_spec (n - k) 0); [lia|]. cbn [bind].
  assert (EU : exists un, GenRepresentatives sha is_prime poseidon fuel (map (fun i => dec (Z.of_nat i)) (seq 0 (Z.to_nat (n - k)))) DIHashFromPoseidon = Ret un).
  { eexists. rewrite GenRep_map.
    apply map_outcome_Ret with (g := fun s => match ElementFromString s with Ret x => poseidon [x] + Min1024 | _ => 0 end).
    intros s Hs. apply in_map_iff in Hs. destruct Hs as (i & <- & _). unfold rep_of, ElementFromString. rewrite set_string10_dec. reflexivity. }
  destruct EU as [un EU]. rewrite EU. cbn [bind].
  pose proof (unchanged_length _ _ _ _ _ _ _ EU) as UL.
  pose proof (randomizers_nonneg poseidon 300 Hpos) as R3.
  match goal with |- context [prover _ ?r _ ?set] => destruct (HQ r set) as [v EV] end.
  { lia. }
  { apply Forall_app; split; [eapply GenRep_nonneg; eauto|now apply new_nonneg]. }
  { rewrite app_length, new_length, UL; lia. }
  rewrite EV. cbn [bind]. rewrite SetProductRecursiveFast_spec. cbn [bind]. unfold PoKE.
  eapply ends_bind with (P := fun _ => True).
  { eapply ends_bind; [apply htp_ends|]. intros l Hl. rewrite div_mod_pos by (cbn in Hl; lia). exact I. }
  intros [[q l] r] _.
  eapply ends_bind; [apply challenge_ends|]. intros [l1 t] H1. eapply ends_bind; [apply challenge_ends|]. intros [l2 t2] L2.
  rewrite !go_mod_ret by lia. cbn [bind].
  match goal with |- ends _ (if negb (IsValid ?u) then _ else _) _ => assert (V : IsValid u = true) end.
  { apply C51_is_valid. unfold well_formed, same_lengths. cbn [u_ID u_OB u_OH u_OE u_UB]. rewrite map_length, !test_ids_len. lia. }
  rewrite V. exact I.
Qed.
(** the set a test of size n proves; it does not depend on the coins *)
Lemma test_set_ends : forall n m, 2 <= n <= 2 ^ 31 -> (forall l, in_fr (poseidon l)) ->
  ends SE (GenTestSet poseidon sha is_prime fuel (Z.to_nat n) setup m) (fun u =>
    well_formed u /\ Z.of_nat (length (u_ID u)) = n /\ forall m', GenTestSet poseidon sha is_prime fuel (Z.to_nat n) setup m' = Ret u).
Proof.
  intros n m Hn HF.
  destruct (C55_honest_partial poseidon exact_mulmod sha is_prime fuel (Z.to_nat n) setup m exact_sound exact_complete HF Hp ltac:(lia) ltac:(lia)) as [NP H].
  destruct (GenTestSet poseidon sha is_prime fuel (Z.to_nat n) setup m) as [u| |] eqn:E; cbn.
  - destruct (H u eq_refl) as (c & A & U & _).
    assert (W : well_formed u).
    { apply C51_is_valid. destruct (IsValid u) eqn:V; [reflexivity|]. unfold AssignCircuit in A. rewrite V in A. discriminate. }
    rewrite (proj2 (proj2 (C51_is_valid u)) W) in A. injection A as <-. unfold users in U. cbn in U.
    split; [exact W|]. split; [lia|]. intros m'. rewrite <- E. now rewrite !GenTestSet_spec by (auto; lia).
  - now apply NP.
  - rewrite GenTestSet_spec in E by (auto; lia). intros S.
    pose proof (challenge_ends (SetupTranscript setup 0 0 0 1000000)) as C1.
    destruct (GetChallengeAndAppend _ _ _ _) as [[l1 t]| |] in E, C1; cbn [bind ends] in *; [|contradiction|now apply C1].
    pose proof (challenge_ends t) as C2. destruct (GetChallengeAndAppend _ _ _ t) as [[l2 t2]| |]; cbn [bind ends] in *; [discriminate|contradiction|now apply C2].
Qed.
End Parts.

(** ** C94 *)
Section Sessions.
Variables pkey vkey proof : Type.
Variable g_setup : ccs -> nat -> pkey * vkey.
Variable g_proof : pkey -> ccs -> assignment -> nat -> proof.
Variable g_verify : proof -> vkey -> list Z -> bool.
Variable sat : ccs -> assignment -> bool.
Variable sha : string -> string.
Variable is_prime : Z -> bool.
Variable poseidon : list Z -> Z.
Variable mulmod : Z -> Z -> Z -> Z -> Prop.
Variable fuel : nat.
Variable sp : list Z -> outcome Z.
Variable pm : Z -> Z -> Z -> list Z -> Z -> outcome (list Z).
Variable setup : Setup.
Notation history := (KeysModel.history pkey vkey g_setup).
Notation SE := (searches_end sha is_prime fuel).
Notation GTS n := (GenTestSet poseidon sha is_prime fuel (Z.to_nat n) setup).
Notation run_action := (DriverModel.run_action sha is_prime poseidon fuel pkey vkey proof g_setup g_proof g_verify sat sp pm setup).
Notation run_actions := (DriverModel.run_actions sha is_prime poseidon fuel pkey vkey proof g_setup g_proof g_verify sat sp pm setup).
Notation sessions := (DriverModel.sessions sha is_prime poseidon fuel pkey vkey proof g_setup g_proof g_verify sat sp pm setup).
Hypothesis GI : ideal g_setup g_proof g_verify sat.
Hypothesis SO : sat_ok poseidon mulmod sat.
Hypothesis MS : mulmod_sound mulmod.
Hypothesis MC : mulmod_complete mulmod.
Hypothesis HF : forall l, in_fr (poseidon l).
Hypothesis Hp : positive_test is_prime.
Hypothesis HN : 0 < sN setup.
Hypothesis HG : 0 <= sG setup < sN setup.
Hypothesis Hsp : runs_product sp.
Hypothesis Hpm : prover_runs pm.

Definition verdict (n : Z) : bool := match GTS n 0 with Ret u => sat (MultiSwap, n) (AMulti (copied u)) | _ => false end.

Lemma snoc : forall l e, history (l ++ [e]) = do_event pkey vkey g_setup (history l) e.
Proof. intros. unfold KeysModel.history. now rewrite fold_left_app. Qed.
Lemma if_missing : forall l n st m rs rp, 0 < n ->
  (if negb (isCircuitExist pkey vkey (history l) MultiSwap n) then SetupZkMultiswap pkey vkey g_setup (history l) MultiSwap n rs else Ret (history l)) =
  Ret (history (l ++ [ETest MultiSwap n st m rs rp])).
Proof.
  intros l n st m rs rp Hn. rewrite snoc. cbn [do_event]. unfold after_setup_if_missing.
  destruct (isCircuitExist _ _ _ _ _); cbn [negb]; [reflexivity|]. unfold SetupZkMultiswap. destruct (Z.leb_spec n 0); [lia|reflexivity].
Qed.
(** a proof of the test set and its verification, once there are keys *)
Lemma prove_and_verify : forall (B : Type) (k : bool -> outcome B) l n m rp s (Q : B -> Prop), sizes_ok l -> 2 <= n <= 2 ^ 31 ->
  last_setup l MultiSwap n = Some s -> ends SE (k (verdict n)) Q ->
  ends SE (do testSet <- GTS n m; do p <- Prove pkey vkey proof g_proof sat (history l) testSet rp;
           match p with
           | None => Panic
           | Some p => do flag <- Verify pkey vkey proof g_verify (history l) p n (PublicPart testSet); k flag
           end) Q.
Proof using All.
  intros B k l n m rp s Q HL Hn HS K.
  eapply ends_bind; [apply (test_set_ends sha is_prime poseidon fuel setup Hp n m Hn HF)|]. intros u (W & LN & EG).
  pose proof (C83_prove_verify _ _ _ _ _ _ _ _ _ GI SO l u rp s HL W) as PV. cbv zeta in PV. rewrite LN in PV. specialize (PV HS).
  destruct PV as (p & -> & V). cbn [bind]. specialize (V [] n (PublicPart u) ltac:(constructor) ltac:(lia)). rewrite app_nil_r in V.
  assert (E : Verify pkey vkey proof g_verify (history l) p n (PublicPart u) = Ret (verdict n)); [|rewrite E; exact K].
  destruct (proj2 (proj2 (C85_verify_answers_partial pkey vkey proof g_setup g_verify l p n (PublicPart u) HL ltac:(lia))) ltac:(congruence)) as [b EB].
  rewrite EB in V |- *. f_equal. unfold verdict. rewrite EG.
  pose proof (fits_copied u W) as F. rewrite LN in F. pose proof (proj1 SO _ _ F) as S.
  destruct b, (sat (MultiSwap, n) (AMulti (copied u))); try reflexivity; exfalso.
  - destruct (proj1 V eq_refl) as (_ & _ & T & _). now apply S in T.
  - assert (Ret false = Ret true) by (apply V; split; [reflexivity|]; split; [repeat constructor|]; split; [now apply S|exact HS]). discriminate.
Qed.
Lemma setup_after : forall l e n, (match e with ETest MultiSwap m _ _ _ _ | EContract2 m _ _ _ _ _ | EContract m _ => m = n | _ => False end) -> 0 < n ->
  exists s, last_setup (l ++ [e]) MultiSwap n = Some s.
Proof using Type.
  clear. intros l e n He Hn. unfold last_setup. rewrite fold_left_app. cbn [fold_left].
  destruct e as [| [] m | |]; try contradiction; subst; cbn [next_setup family_eqb]; rewrite Z.eqb_refl; cbn [andb compiles orb];
    destruct (Z.ltb_spec 0 n); try lia; cbn [andb]; try (destruct (fold_left (next_setup MultiSwap n) l None)); eauto.
Qed.

Lemma action_ends : forall l a c, sizes_ok l -> action_ok a -> 0 <= c_ran c ->
  sizes_ok (l ++ events_of setup a c) /\
  ends SE (run_action (history l) a c) (fun '(fs, flags) => fs = history (l ++ events_of setup a c) /\ flags = verdicts verdict a).
Proof using All.
  intros l a c HL Ha Hc. assert (Hpos : forall l, 0 <= poseidon l) by (intros; apply HF).
  assert (HL' : sizes_ok (l ++ events_of setup a c)).
  { apply Forall_app. split; [assumption|]. destruct a; cbn in *; repeat constructor; cbn; lia. }
  split; [exact HL'|].
  assert (NOTUS : forall body n, 2 <= n <= 2 ^ 31 -> ends SE body (fun _ : notus => True) ->
    ends SE (do (fs, b) <- notus_driver sha is_prime poseidon fuel pkey vkey proof g_setup g_proof g_verify sat setup body (history l) n c; Ret (fs, [b]))
      (fun '(fs, flags) => fs = history (l ++ [ETest MultiSwap n setup (c_mid c) (c_rs c) (c_rp c)]) /\ flags = [verdict n])).
  { intros body n Hn HB. set (l' := l ++ [_]).
    assert (HL2 : sizes_ok l') by (apply Forall_app; split; [assumption|repeat constructor; cbn; lia]).
    destruct (setup_after l (ETest MultiSwap n setup (c_mid c) (c_rs c) (c_rp c)) n eq_refl ltac:(lia)) as [s HS].
    unfold notus_driver. rewrite (if_missing l n setup (c_mid c) (c_rs c) (c_rp c)) by lia. fold l' in HS |- *. cbn [bind].
    eapply ends_bind with (P := fun '(fs, b) => fs = history l' /\ b = verdict n).
    - eapply ends_bind; [exact HB|]. intros _ _.
      apply (prove_and_verify _ (fun flag => Ret (history l', flag)) l' n (c_mid c) (c_rp c) s); auto. cbn. auto.
    - intros [fs b] [-> ->]. cbn. auto. }
  destruct a as [|n|n|n| |n k|n k|n|n limit|n]; cbn [DriverModel.run_action events_of verdicts action_ok] in *; try rewrite app_nil_r in *.
  - eapply ends_bind; [apply poke_round_ends; auto; lia|]. intros _ _. eapply ends_bind; [apply poke_round_ends; auto; lia|]. intros _ _. cbn. auto.
  - destruct (setup_after l (ETest MultiSwap n setup (c_mid c) (c_rs c) (c_rp c)) n eq_refl ltac:(lia)) as [s HS].
    unfold TestMultiSwap. rewrite (if_missing l n setup (c_mid c) (c_rs c) (c_rp c)) by lia. set (l' := l ++ [_]) in *. cbn [bind].
    eapply ends_bind with (P := fun '(fs, b) => fs = history l' /\ b = verdict n).
    + apply (prove_and_verify _ (fun flag => Ret (history l', flag)) l' n (c_mid c) (c_rp c) s); auto. cbn. auto.
    + intros [fs b] [-> ->]. cbn. auto.
  - assert (E : exists fs, OutputSmartContract pkey vkey g_setup (history l) n (c_rs c) = Ret fs).
    { unfold OutputSmartContract. rewrite (if_missing l n setup 0 (c_rs c) 0) by lia. cbn [bind].
      destruct (setup_after l (ETest MultiSwap n setup 0 (c_rs c) 0) n eq_refl ltac:(lia)) as [s HS]. set (l' := l ++ [ETest MultiSwap n setup 0 (c_rs c) 0]) in *.
      assert (HL2 : sizes_ok l') by (apply Forall_app; split; [assumption|repeat constructor; cbn; lia]).
      pose proof (history_files pkey vkey g_setup l' HL2 MultiSwap n ltac:(lia) ".vk.save"%string ltac:(cbn; auto)) as K. cbn [prefix_of] in K.
      unfold read_vk. rewrite K, HS. cbn. eauto. }
    destruct E as [fs E]. rewrite E. cbn. split; [|reflexivity]. rewrite snoc. cbn [do_event]. now rewrite E.
  - destruct (setup_after l (EContract2 n setup (c_mid c) (c_rs c) (c_r2 c) (c_rp c)) n eq_refl ltac:(lia)) as [s HS].
    set (l' := l ++ [_]) in *. assert (EH : history l' = do_event pkey vkey g_setup (history l) (EContract2 n setup (c_mid c) (c_rs c) (c_r2 c) (c_rp c))) by apply snoc.
    unfold OutputSmartContract2. cbn [do_event] in EH.
    assert (ES : SetupZkMultiswap pkey vkey g_setup (history l) MultiSwap n (c_rs c) = Ret (dump pkey vkey g_setup (history l) (MultiSwap, n) (c_rs c))).
    { unfold SetupZkMultiswap. destruct (Z.leb_spec n 0); [lia|reflexivity]. }
    rewrite ES in EH |- *. cbn [bind]. destruct (g_setup (MultiSwap, n) (c_r2 c)) as [pk vk]. cbv zeta. rewrite <- EH.
    eapply ends_bind with (P := fun '(fs, o) => fs = history l' /\ match o with Some _ => true | None => false end = verdict n).
    + eapply ends_mono; [|exact (fun a H => H)].
      eapply ends_bind; [apply (test_set_ends sha is_prime poseidon fuel setup Hp n (c_mid c) Ha HF)|]. intros u (W & LN & EG).
      pose proof (prove_and_verify _ (fun flag => Ret (history l', if negb flag then None else Some (tt, contract_input (PublicPart u)))) l' n (c_mid c) (c_rp c) s
        (fun '(fs, o) => fs = history l' /\ match o with Some _ => true | None => false end = verdict n) HL' Ha HS) as PV.
      rewrite EG in PV. cbn [bind] in PV. destruct (Prove _ _ _ _ _ _ _ _) as [[p|]| |]; cbn [bind] in *; try (apply PV; cbn; destruct (verdict n); auto; fail).
      destruct (Verify _ _ _ _ _ _ _ _) as [flag| |]; cbn [bind] in *; try (apply PV; cbn; destruct (verdict n); auto; fail).
      assert (PV' : match (if negb flag then None else Some (tt, contract_input (PublicPart u))) with Some _ => true | None => false end = verdict n).
      { apply PV. cbn. destruct (verdict n); auto. }
      cbn. split; [reflexivity|]. rewrite <- PV'. destruct flag; reflexivity.
    + intros [fs o] [-> <-]. cbn. auto.
  - destruct (C93_membership_verify sha is_prime poseidon Hpos fuel setup HN HG) as (ch & sz & E & _). rewrite E. cbn. auto.
  - apply NOTUS; [lia|]. apply notus_ends; auto; try lia.
    + intros a b. rewrite !SetProductRecursiveFast_spec. cbn. eauto.
    + intros r set Hr Hs H4. eexists. now apply Randomizer_spec.
  - apply NOTUS; [lia|]. apply notus_ends; auto; try lia.
    + intros a b. rewrite !(runs_product_spec _ _ Hsp). cbn. eauto.
    + intros r set Hr Hs H4. eexists. now apply prover_runs_spec.
  - unfold TestRSAMembershipPreCompute. destruct (bench_ret sha is_prime poseidon fuel n ltac:(lia)) as (set & -> & LS & HR). cbn [bind]. rewrite HR. cbn [bind run_pm].
    unfold run_pm. cbn [bind]. rewrite prover_runs_spec; auto using bench_nonneg; [|rewrite bench_length; lia]. cbn [bind].
    assert (WL : length (wit (sG setup) (sN setup) (if 0 <=? 0 then c_ran c else 1) (bench_reps poseidon n)) = Z.to_nat n) by now rewrite wit_length, bench_length.
    destruct (wit _ _ _ _) as [|w ws]; [cbn in WL; lia|]. cbn. auto.
  - unfold TestRSAMembershipPreComputeDIParallel. destruct (bench_ret sha is_prime poseidon fuel n ltac:(lia)) as (set & -> & LS & HR). cbn [bind]. rewrite HR. cbn [bind].
    pose proof (bench_length poseidon n) as BL.
    assert (SL : go_slice (bench_reps poseidon n) 0 (Z.to_nat n) = Ret (bench_reps poseidon n)).
    { unfold go_slice. rewrite BL. rewrite Nat.leb_refl. cbn [Nat.leb andb]. rewrite Nat.sub_0_r. cbn [skipn]. rewrite <- BL at 1. now rewrite firstn_all. }
    rewrite SL. cbn [bind]. unfold run_pm. cbn [bind]. rewrite prover_runs_spec; auto using bench_nonneg; [|rewrite bench_length; lia]. cbn [bind].
    assert (WL : length (wit (sG setup) (sN setup) (if limit <=? 0 then c_ran c else 1) (bench_reps poseidon n)) = Z.to_nat n) by now rewrite wit_length, bench_length.
    destruct (wit _ _ _ _) as [|w ws]; [cbn in WL; lia|]. cbn. auto.
  - rewrite (proj2 (C83_tests _ _ _ _ _ _ _ _ _ GI SO MS MC HF l (c_rs c) (c_rp c) HL) n setup 0) by lia. cbn. auto.
Qed.
Lemma actions_end : forall acts l coin i, sizes_ok l -> Forall action_ok acts -> (forall j, 0 <= c_ran (coin j)) ->
  sizes_ok (l ++ all_events setup acts coin i) /\
  ends SE (run_actions (history l) acts coin i) (fun '(fs, flags) =>
    fs = history (l ++ all_events setup acts coin i) /\ flags = flat_map (verdicts verdict) acts).
Proof using All.
  induction acts as [|a acts IH]; intros l coin i HL HA Hc; cbn [all_events flat_map DriverModel.run_actions].
  - rewrite app_nil_r. cbn. auto.
  - inversion HA as [|? ? Ha HA']; subst. destruct (action_ends l a (coin i) HL Ha (Hc i)) as [HL1 E1].
    destruct (IH _ coin (S i) HL1 HA' Hc) as [HL2 E2]. rewrite app_assoc. split; [exact HL2|].
    eapply ends_bind; [exact E1|]. intros [fs v] [-> ->]. eapply ends_bind; [exact E2|]. intros [fs vs] [-> ->]. cbn. auto.
Qed.
End Sessions.

(** The program, started any number of times in a directory its own runs have made, never panics; it ends when
    the searches for primes do; it leaves a directory of that kind; and whether the test of a size passes is
    the same in every session: it passes exactly if the circuit of that size is satisfied. *)
Theorem C94_sessions : forall pkey vkey proof (g_setup : ccs -> nat -> pkey * vkey) g_proof (g_verify : proof -> vkey -> list Z -> bool) sat
  sha is_prime poseidon mulmod fuel sp pm setup,
  ideal g_setup g_proof g_verify sat -> sat_ok poseidon mulmod sat -> mulmod_sound mulmod -> mulmod_complete mulmod ->
  (forall l, in_fr (poseidon l)) -> positive_test is_prime -> 0 < sN setup -> 0 <= sG setup < sN setup -> runs_product sp -> prover_runs pm ->
  exists passes : Z -> bool,
  (forall n m u, 2 <= n <= 2 ^ 31 -> GenTestSet poseidon sha is_prime fuel (Z.to_nat n) setup m = Ret u ->
     (passes n = true <-> satisfied poseidon mulmod (field_circuit (copied u))) /\ (no_wrap poseidon (copied u) -> passes n = true)) /\
  forall l inputs coin, sizes_ok l -> (forall i, 0 <= c_ran (coin i)) ->
  let acts := List.concat (map menu inputs) in let l' := l ++ all_events setup acts coin 0 in
  sizes_ok l' /\
  match sessions sha is_prime poseidon fuel pkey vkey proof g_setup g_proof g_verify sat sp pm setup (history pkey vkey g_setup l) inputs coin with
  | Ret (fs, flags) => fs = history pkey vkey g_setup l' /\ flags = flat_map (verdicts passes) acts
  | Panic => False
  | OutOfFuel => ~ searches_end sha is_prime fuel
  end.
Proof.
  intros pkey vkey proof g_setup g_proof g_verify sat sha is_prime poseidon mulmod fuel sp pm setup GI SO MS MC HF Hp HN HG Hsp Hpm.
  exists (verdict sat sha is_prime poseidon fuel setup). split.
  - intros n m u Hn HU. pose proof (test_set_ends sha is_prime poseidon fuel setup Hp n m Hn HF) as T. rewrite HU in T. cbn in T.
    destruct T as (W & LN & EG). pose proof (fits_copied u W) as F. rewrite LN in F. unfold verdict. rewrite EG.
    split; [exact (proj1 SO _ _ F)|]. intros NW. apply (proj1 SO _ _ F).
    destruct (C55_honest_partial poseidon mulmod sha is_prime fuel (Z.to_nat n) setup m MS MC HF Hp ltac:(lia) ltac:(lia)) as [_ H].
    destruct (H u HU) as (c & A & _ & _ & _ & _ & S). rewrite (proj2 (proj2 (C51_is_valid u)) W) in A. injection A as <-. now apply S.
  - intros l inputs coin HL Hc acts l'.
    assert (HA : Forall action_ok acts).
    { unfold acts. clear. induction inputs as [|i inputs IH]; [constructor|]. cbn. apply Forall_app. split; [apply menu_ok|exact IH]. }
    destruct (actions_end pkey vkey proof g_setup g_proof g_verify sat sha is_prime poseidon mulmod fuel sp pm setup GI SO MS MC HF Hp HN HG Hsp Hpm acts l coin 0 HL HA Hc) as [H1 H2].
    split; [exact H1|exact H2].
Qed.

(** a case: a toy scheme, five sessions; the searches end at once, and the tests pass *)
Definition pm_any (G r N : Z) (set : list Z) (limit : Z) : outcome (list Z) :=
  ProveMembershipSingleThreadWithRandomizer G (if limit <=? 0 then r else 1) N set.
Lemma pm_any_ok : prover_runs pm_any.
Proof.
  intros G r N set limit HN Hr Hs Hl. unfold pm_any. rewrite Randomizer_spec; auto; [|destruct (limit <=? 0); lia].
  apply always_may, (pm_always_returns N (PMRandomizer G r set limit)); [assumption|]. split; [exact Hs|cbn; auto].
Qed.
Lemma seven_searches : searches_end (one_byte "007"%char) seven 5.
Proof.
  split; [intros s; vm_compute; discriminate|]. intros l w. unfold FS_HashToPrime, one_byte.
  assert (E : wrapNumber (String "007" "") w = 7) by (unfold wrapNumber; destruct (w =? Default), (w =? Max252); reflexivity).
  rewrite E. discriminate.
Qed.
Example C94_case : exists fs,
  sessions (one_byte "007"%char) seven toy_pos 5 (ccs * nat) (ccs * nat) ((ccs * nat) * assignment * nat) toy_setup toy_proof (toy_verify (toy_sat toy_pos)) (toy_sat toy_pos)
    sp_run pm_any {| sN := 35; sG := 2; sH := 3 |} (fun _ => None) [Some 1; None; Some 6; Some 7; Some 1]
    (fun i => {| c_rs := i; c_r2 := i + 50; c_rp := i; c_mid := 3; c_ran := 8 |}) = Ret (fs, [true; true; true; true; true]) /\
  (* the keys of size 10 are those of the last export; the first contract has the keys of the export before *)
  fs "zkmultiswap_10.vk.save"%string = Some (FVK _ _ (MultiSwap, 10, 8%nat)) /\
  fs "contract_g16.sol"%string = Some (FSol _ _ (MultiSwap, 10, 3%nat)) /\
  fs "Notuscontract_g16.sol"%string = Some (FSol _ _ (MultiSwap, 10, 58%nat)).
Proof.
  set (st := {| sN := 35; sG := 2; sH := 3 |}). set (coin := fun i : nat => {| c_rs := i; c_r2 := i + 50; c_rp := i; c_mid := 3; c_ran := 8 |}).
  set (inputs := [Some 1; None; Some 6; Some 7; Some 1]).
  assert (T : exists u, GenTestSet toy_pos (one_byte "007"%char) seven 5 (Z.to_nat 10) st 3 = Ret u /\ no_wrap toy_pos (copied u)).
  { eexists. split; [vm_compute; reflexivity|]. intros i Hi. cbn in Hi.
    do 10 (destruct i as [|i]; [split; vm_compute; reflexivity|]). lia. }
  destruct T as (u & HU & NW).
  destruct (C94_sessions _ _ _ _ _ _ _ (one_byte "007"%char) seven toy_pos exact_mulmod 5 sp_run pm_any st (toy_ideal (toy_sat toy_pos)) (toy_sat_ok toy_pos)
    exact_sound exact_complete toy_pos_fr) as (passes & P & S).
  { intros x Hx. apply Z.eqb_eq in Hx. lia. } { cbn. lia. } { cbn. lia. } { exact sp_run_ok. } { exact pm_any_ok. }
  destruct (P 10 3 u ltac:(lia) HU) as [_ P10]. specialize (P10 NW).
  specialize (S [] inputs coin ltac:(constructor) ltac:(cbn; lia)). cbv zeta in S. destruct S as [_ S].
  change (history (ccs * nat) (ccs * nat) toy_setup []) with (fun _ : string => @None (content (ccs * nat) (ccs * nat))) in S.
  destruct (sessions _ _ _ _ _ _ _ _ _ _ _ _ _ _ _ _ _) as [[fs flags]| |]; [|contradiction|exfalso; apply S, seven_searches].
  destruct S as [-> ->]. eexists. split.
  - apply f_equal. apply f_equal2; [reflexivity|]. cbn. now rewrite P10.
  - split; [vm_compute; reflexivity|]. split; vm_compute; reflexivity.
Qed.

Print Assumptions C94_menu. Print Assumptions C94_menu_sizes. Print Assumptions C94_sessions.
