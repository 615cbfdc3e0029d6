(** Theorems for properties C99-C102: what the test functions of /repo establish, for every draw, hash and schedule.
    sha, is_prime and poseidon are arbitrary; premises say what a test needs of them. *)
From Coq Require Import ZArith Znumtheory Zpow_facts Bool Lia Ascii String List.
From Verif Require Import GoBig GoBigFacts StrFacts Spec AccModel AccFacts AccProofs ForkJoin ParModel ParProofs IterModel IterProofs
  HashModel HashProofs Sched ParIterModel ParIterProofs AccParModel ExpModel ExpProofs TableModel TableProofs FSModel FSProofs
  CircuitModel CircuitProofs SuiteModel PropertiesAcc PropertiesHash PropertiesParIter PropertiesExp PropertiesFS PropertiesCircuit.
Import ListNotations.
Open Scope Z_scope.

Lemma expect_true : forall b m, b = true -> expect b m = [].
Proof. intros b m ->. reflexivity. Qed.
Lemma go_index_nth : forall (A : Type) (l : list A) i, (i < length l)%nat -> exists x, go_index l i = Ret x /\ nth_error l i = Some x.
Proof.
  intros A l i H. unfold go_index. destruct (nth_error l i) as [x|] eqn:E; [now exists x|]. apply nth_error_None in E. lia.
Qed.

(** ** C99 *)
Definition gN : Z := sN TrustedSetup.
Definition gG : Z := sG TrustedSetup.
Lemma setup_bounds : 1 < gG < gN /\ Z.gcd gG gN = 1.
Proof. destruct TrustedSetup_facts as (_ & _ & H & _ & G & _). split; assumption. Qed.

Lemma round_value : forall rep proofs i p r, witnesses gG gN rep proofs -> nonneg rep ->
  nth_error proofs i = Some p -> nth_error rep i = Some r -> AccumulateNew p r gN = gG ^ product rep mod gN.
Proof.
  intros rep proofs i p r [_ W] Hr Hp Hx. destruct setup_bounds as [B _]. rewrite (W _ _ Hp).
  assert (0 <= r) by (rewrite Forall_forall in Hr; apply Hr; eapply nth_error_In; exact Hx).
  rewrite AccumulateNew_spec by lia. rewrite pow_mod_mul; [now rewrite (without_product _ _ _ Hx)|..]; try lia; try assumption.
  apply product_nonneg. now apply without_Forall.
Qed.

Section Suite.
Variable sha : string -> string.
Variable is_prime : Z -> bool.
Variable poseidon : list Z -> Z.
Variable fuel : nat.
Hypothesis Hpos : forall l, 0 <= poseidon l.
(** HashToPrime finds a prime for every element of the set *)
Definition found (set : list string) : Prop := exists rep, GenRepresentatives sha is_prime poseidon fuel set HashToPrimeFromSha256 = Ret rep.

Lemma acc_round : forall set idx again, found set -> (idx < length set)%nat -> Forall (fun i => (i < length set)%nat) again ->
  acc_and_prove_round sha is_prime poseidon fuel set idx again = Ret [].
Proof.
  intros set idx again [rep Er] Hi Ha. destruct setup_bounds as [B _].
  assert (Hne : set <> []) by (intros ->; cbn in Hi; lia).
  destruct (C13_entry_points sha is_prime poseidon 1 fuel set HashToPrimeFromSha256 TrustedSetup ltac:(lia) Hpos ltac:(fold gN; lia) ltac:(fold gN; fold gG; lia)) as [H _].
  destruct (H rep Er Hne) as (proofs & W & Es & _). clear H. fold gN in W, Es. fold gG in W, Es.
  pose proof (GenRep_nonneg _ _ _ _ _ _ _ Hpos Er) as Hr. pose proof (GenRep_length _ _ _ _ _ _ _ Er) as Lr.
  unfold acc_and_prove_round. rewrite Es. cbn [bind]. unfold acc_and_prove_checks. cbv zeta. rewrite Er. cbn [bind]. fold gN. fold gG.
  assert (Lp : length proofs = length rep) by apply W.
  assert (V : forall i, (i < length set)%nat -> exists p r, go_index proofs i = Ret p /\ go_index rep i = Ret r /\ AccumulateNew p r gN = gG ^ product rep mod gN).
  { intros i Hlt. destruct (go_index_nth _ proofs i ltac:(lia)) as (p & Ep & Np). destruct (go_index_nth _ rep i ltac:(lia)) as (r & E & N).
    exists p, r. split; [assumption|]. split; [assumption|]. eapply round_value; eassumption. }
  destruct (V idx Hi) as (p & r & E1 & E2 & E3). rewrite E1. cbn [bind]. rewrite E2. cbn [bind]. rewrite E3.
  rewrite accumulate_val_spec' by (try assumption; lia).
  match goal with |- context[map_outcome ?f again] => rewrite (map_outcome_Ret _ _ f (fun _ => [])) end.
  - cbn [bind]. rewrite Z.eqb_refl. rewrite Lp, Lr, Nat.eqb_refl. cbn [expect app]. f_equal. clear. induction again; [reflexivity|assumption].
  - intros i Hin. rewrite Forall_forall in Ha. destruct (V i (Ha i Hin)) as (p' & r' & F1 & F2 & F3). rewrite F1. cbn [bind]. rewrite F2. cbn [bind]. rewrite F3. now rewrite Z.eqb_refl.
Qed.

Lemma iter_checks_pass : forall set rep proofs idx, GenRepresentatives sha is_prime poseidon fuel set HashToPrimeFromSha256 = Ret rep ->
  witnesses gG gN rep proofs -> (idx < length set)%nat ->
  iter_checks sha is_prime poseidon fuel set idx (length set) (gG ^ product rep mod gN) (map Some proofs) = Ret [].
Proof.
  intros set rep proofs idx Er W Hi. destruct setup_bounds as [B _].
  pose proof (GenRep_nonneg _ _ _ _ _ _ _ Hpos Er) as Hr. pose proof (GenRep_length _ _ _ _ _ _ _ Er) as Lr.
  assert (Lp : length proofs = length rep) by apply W.
  unfold iter_checks, genAccts. rewrite Er. cbn [bind]. fold gN. fold gG.
  destruct (go_index_nth _ proofs idx ltac:(lia)) as (p & _ & Np). destruct (go_index_nth _ rep idx ltac:(lia)) as (r & E & N).
  assert (Ep : go_index (map Some proofs) idx = Ret (Some p)) by (unfold go_index; rewrite nth_error_map, Np; reflexivity).
  rewrite Ep. cbn [bind deref]. rewrite E. cbn [bind]. rewrite (round_value rep proofs idx p r) by assumption.
  rewrite accumulate_val_spec' by (try assumption; lia).
  rewrite map_length, Lp, Lr, Nat.eqb_refl, Z.eqb_refl. reflexivity.
Qed.

Lemma iter_case_passes : forall set idx, found set -> (idx < length set)%nat ->
  iter_case sha is_prime poseidon fuel set idx (length set) = Ret [].
Proof.
  intros set idx [rep Er] Hi. destruct setup_bounds as [B _].
  assert (Hne : set <> []) by (intros ->; cbn in Hi; lia).
  destruct (C13_entry_points sha is_prime poseidon 1 fuel set HashToPrimeFromSha256 TrustedSetup ltac:(lia) Hpos ltac:(fold gN; lia) ltac:(fold gN; fold gG; lia)) as [H _].
  destruct (H rep Er Hne) as (proofs & W & _ & Ei & _). clear H. fold gN in W, Ei. fold gG in W, Ei.
  unfold iter_case. rewrite Ei. cbn [bind]. now apply iter_checks_pass.
Qed.
Lemma iter_parallel_passes : forall cpus set idx, (1 <= cpus)%nat -> found set -> (idx < length set)%nat ->
  exists c k, iter_parallel_case sha is_prime poseidon fuel cpus set idx (length set) = Ret (c, k) /\ call_ends c (fun v => passes (k v)).
Proof.
  intros cpus set idx Hc [rep Er] Hi. destruct setup_bounds as [B _].
  assert (Hne : set <> []) by (intros ->; cbn in Hi; lia).
  destruct (C13_entry_points sha is_prime poseidon cpus fuel set HashToPrimeFromSha256 TrustedSetup Hc Hpos ltac:(fold gN; lia) ltac:(fold gN; fold gG; lia)) as [H _].
  destruct (H rep Er Hne) as (proofs & W & _ & _ & _ & c & k & Ep & Hend & Ek). clear H. fold gN in W, Ek. fold gG in W, Ek.
  unfold iter_parallel_case. rewrite Ep. cbn [bind]. do 2 eexists. split; [reflexivity|].
  assert (P : forall v, v = map Some proofs -> passes (do (acc, proofs0) <- k v; iter_checks sha is_prime poseidon fuel set idx (length set) acc proofs0)).
  { intros v ->. rewrite Ek. cbn [bind]. now apply iter_checks_pass. }
  destruct c as [o|N s nw pw st]; cbn [call_ends] in *.
  - destruct Hend as (v & -> & Hv). exists v. split; [reflexivity|]. apply P, Hv.
  - eapply always_ends_mono; [|exact Hend]. intros v Hv. apply P, Hv.
Qed.
End Suite.

Lemma rand_set_length : forall d, length (rand_set d) = length d.
Proof. intros. apply map_length. Qed.

Theorem C99_setup : TestSetup = [] /\ TestCommonBits = [].
Proof. split; vm_compute; reflexivity. Qed.

Theorem C99_accumulate : forall sha is_prime poseidon fuel d1 d2 d3, (forall l, 0 <= poseidon l) ->
  Forall (fun d => found sha is_prime poseidon fuel (rand_set d)) [d1; d2; d3] ->
  (length d1 = 3072%nat -> length d2 = 17%nat -> length d3 = 254%nat ->
     passes (TestAccAndProve sha is_prime poseidon fuel d1 d2 d3)) /\
  (length d1 = 16%nat -> length d2 = 17%nat -> length d3 = 254%nat ->
     passes (TestAccAndProveIter sha is_prime poseidon fuel d1 d2 d3)).
Proof.
  intros sha is_prime poseidon fuel d1 d2 d3 Hp F. inversion F as [|? ? F1 F']; subst. inversion F' as [|? ? F2 F'']; subst.
  inversion F'' as [|? ? F3 _]; subst. clear F F' F''.
  split; intros L1 L2 L3; unfold passes, TestAccAndProve, TestAccAndProveIter.
  - pose proof (acc_round sha is_prime poseidon fuel Hp (rand_set d1) 5 [1%nat] F1) as P1.
    pose proof (acc_round sha is_prime poseidon fuel Hp (rand_set d2) 7 [] F2) as P2.
    pose proof (acc_round sha is_prime poseidon fuel Hp (rand_set d3) 252 [] F3) as P3.
    rewrite rand_set_length in P1, P2, P3. rewrite L1 in P1. rewrite L2 in P2. rewrite L3 in P3.
    assert (B1 : forall a b, (a <? b)%nat = true -> (a < b)%nat) by (intros; now apply Nat.ltb_lt).
    rewrite P1; [|apply B1; reflexivity|constructor; [apply B1; reflexivity|constructor]]. cbn [bind].
    rewrite P2; [|apply B1; reflexivity|constructor]. cbn [bind].
    rewrite P3; [|apply B1; reflexivity|constructor]. reflexivity.
  - pose proof (iter_case_passes sha is_prime poseidon fuel Hp (rand_set d1) 5 F1) as P1.
    pose proof (iter_case_passes sha is_prime poseidon fuel Hp (rand_set d2) 7 F2) as P2.
    pose proof (iter_case_passes sha is_prime poseidon fuel Hp (rand_set d3) 253 F3) as P3.
    rewrite rand_set_length in P1, P2, P3. rewrite L1 in P1. rewrite L2 in P2. rewrite L3 in P3.
    rewrite P1, P2, P3 by (apply Nat.ltb_lt; reflexivity). reflexivity.
Qed.

(** the parallel version: for every number of processors and every schedule *)
Theorem C99_parallel : forall sha is_prime poseidon fuel cpus d n idx, (forall l, 0 <= poseidon l) -> (1 <= cpus)%nat ->
  In (n, idx) [(16, 5); (17, 7); (254, 253)]%nat -> length d = n -> found sha is_prime poseidon fuel (rand_set d) ->
  exists c k, iter_parallel_case sha is_prime poseidon fuel cpus (rand_set d) idx n = Ret (c, k) /\
    call_ends c (fun v => passes (k v)).
Proof.
  intros sha is_prime poseidon fuel cpus d n idx Hp Hc Hin Ln F.
  rewrite <- Ln, <- (rand_set_length d). apply iter_parallel_passes; try assumption. rewrite rand_set_length, Ln.
  destruct Hin as [[= <- <-]|[[= <- <-]|[[= <- <-]|[]]]]; apply Nat.ltb_lt; reflexivity.
Qed.

Lemma bench_reps : forall sha is_prime poseidon fuel, (forall l, 0 <= poseidon l < fr_modulus) ->
  exists set rep, GenBenchSet 1000 = Ret set /\ GenRepresentatives sha is_prime poseidon fuel set DIHashFromPoseidon = Ret rep /\
    length rep = 1000%nat /\ Forall (fun x => 0 < x <= 2 ^ 1024) rep.
Proof.
  intros sha is_prime poseidon fuel Hp. destruct (C23_bench_set 1000) as [_ H]. destruct (H ltac:(lia)) as (set & Es & Ls & _ & D & _).
  pose proof (C18_representatives sha is_prime poseidon fuel) as (_ & _ & Hex & _). destruct (Hex set D) as [rep Er].
  exists set, rep. split; [exact Es|]. split; [exact Er|].
  assert (Lr : length rep = 1000%nat) by (rewrite (GenRep_length _ _ _ _ _ _ _ Er); clear -Ls; lia).
  split; [exact Lr|].
  clear -Er Hp. rewrite GenRep_map in Er. apply map_outcome_ret in Er.
  induction Er as [|s r set rep Hs _ IH]; constructor; [|assumption].
  unfold rep_of in Hs. rewrite Z.eqb_refl in Hs.
  destruct (ElementFromString s) as [x| |]; cbn [bind] in Hs; try discriminate. injection Hs as <-.
  pose proof (Hp [x]) as P. rewrite Min1024_val. pose proof fr_big as FB. assert (fr_modulus < 2 ^ 1023) by reflexivity.
  assert (0 < 2 ^ 1023) by (apply Z.pow_pos_nonneg; lia). change (2 ^ 1024) with (2 * 2 ^ 1023). lia.
Qed.

Theorem C99_product : forall sha is_prime poseidon fuel, (forall l, 0 <= poseidon l < fr_modulus) ->
  exists t k, TestProduct sha is_prime poseidon fuel = Ret (t, k) /\
    exists v, always_returns sp_expand t v /\ passes (k v).
Proof.
  intros sha is_prime poseidon fuel Hp. destruct (bench_reps sha is_prime poseidon fuel Hp) as (set & rep & Es & Er & _).
  unfold TestProduct. rewrite Es. cbn [bind]. rewrite Er. cbn [bind].
  destruct (C01_set_products rep) as (_ & E2 & _ & E4). rewrite E4. cbn [bind]. do 2 eexists. split; [reflexivity|].
  exists (product rep). split; [apply C02_set_product_parallel|]. cbv beta. unfold passes. rewrite E2, Z.eqb_refl. reflexivity.
Qed.

Theorem C99_GCB : forall a b, 0 <= a < 1000000 -> 0 <= b < 1000000 -> TestGCB a b = [].
Proof.
  intros a b Ha Hb. pose proof (C22_GCB_partial a b ltac:(lia) ltac:(lia)) as H. unfold TestGCB.
  destruct (GCB a b) as [[r a'] b']. destruct H as (_ & -> & -> & _). apply expect_true. apply Z.eqb_eq. lia.
Qed.

(** both table tests: every run of Compute with four routines ends with the wanted value, which is not 0 (so that
    reflect.DeepEqual compares the words of two normalised numbers) *)
Definition table_test_passes (o : outcome (Table * Z * Z)) : Prop :=
  exists t x want, o = Ret (t, x, want) /\ want <> 0 /\ always_ends t_step t_ret t_idle (t_init t x 4) (fun v => v = want).
Lemma accumulate_eq : forall s reps, accumulate s reps = accumulate_val (sG s) (sN s) reps.
Proof. reflexivity. Qed.
Lemma unit_power : forall g n e, 1 < n -> Z.gcd g n = 1 -> 0 <= e -> g ^ e mod n <> 0.
Proof.
  intros g n e Hn G He Z0. apply Z.mod_divide in Z0; [|lia].
  assert (R : rel_prime n (g ^ e)).
  { apply Zpow_facts.rel_prime_Zpower_r; [assumption|]. apply rel_prime_sym. now apply Zgcd_1_rel_prime. }
  destruct R as [_ _ R]. specialize (R n (Z.divide_refl _) Z0). apply Z.divide_1_r_nonneg in R; lia.
Qed.
Theorem C99_table : table_test_passes TestTable_Compute_small /\
  forall sha is_prime poseidon fuel, (forall l, 0 <= poseidon l < fr_modulus) -> table_test_passes (TestTable_Compute sha is_prime poseidon fuel).
Proof.
  split.
  - unfold TestTable_Compute_small, table_test_passes.
    destruct (NewTable (sG small_setup) (sN small_setup) 32 (length small_reps) 1) as [t| |] eqn:E; [|vm_compute in E; discriminate..].
    cbn [bind]. do 3 eexists. split; [reflexivity|].
    assert (V : accumulate small_setup small_reps = powmod 2 171360 1000003) by (vm_compute; reflexivity).
    rewrite V. split; [vm_compute; discriminate|].
    rewrite powmod_spec by lia.
    apply (C31_Table_Compute 2 1000003 32 4 1); [lia|exact E| |lia]. split; [lia|]. vm_compute. reflexivity.
  - intros sha is_prime poseidon fuel Hp. destruct (bench_reps sha is_prime poseidon fuel Hp) as (set & rep & Es & Er & Lr & Fr).
    unfold TestTable_Compute. rewrite Es. cbn [bind]. rewrite Er. cbn [bind].
    destruct (C01_set_products rep) as (_ & _ & -> & _). cbn [bind]. destruct setup_bounds as [B G].
    rewrite accumulate_eq. fold gN. fold gG.
    assert (Hb : bit_len (Z.shiftl 1 2048 - 1) = 2048) by (vm_compute; reflexivity).
    assert (T : exists t, NewTable gG gN (Z.shiftl 1 2048 - 1) 1000 512 = Ret t).
    { unfold NewTable. rewrite Hb. change (512 =? 0)%nat with false. cbn beta iota zeta.
      replace (Z.to_nat (2048 * Z.of_nat 1000 / (Z.of_nat 512 * 8))) with (S 499) by (vm_compute; reflexivity). eexists. reflexivity. }
    destruct T as [t Et]. rewrite Et. cbn [bind]. do 3 eexists. split; [reflexivity|].
    assert (Hr : Forall (fun x => 0 <= x) rep) by (eapply Forall_impl; [|exact Fr]; cbv beta; intros; lia).
    rewrite accumulate_val_spec' by (try assumption; lia). split.
    + apply unit_power; [lia|exact G|now apply product_nonneg].
    + apply (C32_table_covers_partial gG gN (Z.shiftl 1 2048 - 1) 1000 512); try assumption; try lia.
      * eapply Forall_impl; [|exact Fr]. cbv beta. intros x Hx. split; [lia|].
        assert (2 ^ 1024 <= Z.shiftl 1 2048 - 1) by (vm_compute; discriminate). lia.
      * rewrite Hb. exists 500. reflexivity.
Qed.
(** toy hashes meet the premises *)
Example C99_case : found toy_sha toy_prime toy_poseidon 600 (rand_set (repeat 12345678 17)) /\
  (forall l, 0 <= toy_poseidon l < fr_modulus) /\ TestGCB 999999 524288 = [].
Proof.
  split; [|split].
  - eexists. vm_compute. reflexivity.
  - intros l. apply Z.mod_pos_bound. reflexivity.
  - vm_compute. reflexivity.
Qed.

(** ** C100 *)
(** Full statement: TestSimpleExp passes for all draws. It is false: SimpleExp refuses 0 and 1. *)
Theorem C100_simple_exp_refuted : exists g x N, 0 <= g < 1000000 /\ 0 <= x < 1000000 /\ 0 <= N < 1000000 /\ ~ passes (TestSimpleExp g x N).
Proof. exists 1, 5, 7. do 3 (split; [lia|]). vm_compute. discriminate. Qed.
(** it passes for the other draws, and panics (the whole test binary dies) exactly for these *)
Theorem C100_simple_exp_partial : forall g x N, 0 <= g < 1000000 -> 0 <= x < 1000000 -> 0 <= N < 1000000 ->
  (2 <= g /\ 1 <= x /\ 2 <= N -> passes (TestSimpleExp g x N)) /\
  (~ (2 <= g /\ 1 <= x /\ 2 <= N) -> TestSimpleExp g x N = Panic).
Proof.
  intros g x N Hg Hx HN. destruct (C21_SimpleExp_partial g x N) as [P R]. unfold TestSimpleExp, passes. split.
  - intros (H1 & H2 & H3). destruct (R ltac:(lia) ltac:(lia) ltac:(lia)) as (_ & _ & V). assert (1000000 < 2 ^ 64) by reflexivity.
    rewrite V by lia. cbn [bind]. rewrite exp_recv_nonneg by lia. now rewrite Z.eqb_refl.
  - intros H. rewrite P by lia. reflexivity.
Qed.
(** the number of triples below n (per coordinate) on which it panics *)
Definition bad_draw (t : Z * Z * Z) : bool := let '(g, x, N) := t in negb ((2 <=? g) && (1 <=? x) && (2 <=? N)).
Definition draws (n : nat) : list Z := map Z.of_nat (seq 0 n).
Definition triples (n : nat) : list (Z * Z * Z) := list_prod (list_prod (draws n) (draws n)) (draws n).
Lemma bad_draw_spec : forall g x N, 0 <= g < 1000000 -> 0 <= x < 1000000 -> 0 <= N < 1000000 ->
  (bad_draw (g, x, N) = true <-> ~ passes (TestSimpleExp g x N)).
Proof.
  intros g x N Hg Hx HN. destruct (C100_simple_exp_partial g x N Hg Hx HN) as [A B]. unfold bad_draw.
  destruct (Z.leb_spec 2 g), (Z.leb_spec 1 x), (Z.leb_spec 2 N); cbn [andb negb]; split; intros X; try reflexivity; try discriminate;
    try (exfalso; apply X; apply A; lia); rewrite B by lia; discriminate.
Qed.
Lemma prod_filter : forall (A B : Type) (f : A -> bool) (g : B -> bool) l m,
  filter (fun p => f (fst p) && g (snd p)) (list_prod l m) = list_prod (filter f l) (filter g m).
Proof.
  intros A B f g l m. induction l as [|a l IH]; [reflexivity|]. cbn [list_prod filter]. rewrite filter_app, IH.
  assert (E : filter (fun p => f (fst p) && g (snd p)) (map (fun y => (a, y)) m) = if f a then map (fun y => (a, y)) (filter g m) else []).
  { clear. induction m as [|b m IH]; cbn [map filter]; [now destruct (f a)|]. cbn [fst snd]. rewrite IH. destruct (f a), (g b); reflexivity. }
  rewrite E. destruct (f a); reflexivity.
Qed.
Lemma filter_split : forall (A : Type) (f : A -> bool) l, (length (filter f l) + length (filter (fun x => negb (f x)) l) = length l)%nat.
Proof. intros A f l. induction l as [|a l IH]; [reflexivity|]. cbn [filter]. destruct (f a); cbn [negb length]; lia. Qed.
Lemma draws_from : forall n k, (k <= n)%nat -> length (filter (fun x => Z.of_nat k <=? x) (draws n)) = (n - k)%nat.
Proof.
  intros n k H. unfold draws. replace n with (k + (n - k))%nat at 1 by lia. rewrite seq_app, map_app, filter_app, app_length.
  assert (E1 : forall a m, (a + m <= k)%nat -> filter (fun x => Z.of_nat k <=? x) (map Z.of_nat (seq a m)) = []).
  { intros a m. revert a. induction m as [|m IH]; intros a Ha; [reflexivity|]. cbn [seq map filter].
    destruct (Z.leb_spec (Z.of_nat k) (Z.of_nat a)); [lia|]. apply IH. lia. }
  assert (E2 : forall m a, (k <= a)%nat -> length (filter (fun x => Z.of_nat k <=? x) (map Z.of_nat (seq a m))) = m).
  { induction m as [|m IH]; intros a Ha; [reflexivity|]. cbn [seq map filter].
    destruct (Z.leb_spec (Z.of_nat k) (Z.of_nat a)); [|lia]. cbn [length]. rewrite IH; lia. }
  rewrite E1, E2 by lia. reflexivity.
Qed.
Theorem C100_count : forall n, (2 <= n)%nat ->
  Z.of_nat (length (filter bad_draw (triples n))) = 5 * Z.of_nat n ^ 2 - 8 * Z.of_nat n + 4 /\ Z.of_nat (length (triples n)) = Z.of_nat n ^ 3.
Proof.
  intros n Hn.
  assert (Ld : length (draws n) = n) by (unfold draws; now rewrite map_length, seq_length).
  assert (Lt : length (triples n) = (n * n * n)%nat) by (unfold triples; now rewrite !prod_length, Ld).
  pose proof (filter_split _ bad_draw (triples n)) as S.
  set (two := fun g => Z.of_nat 2 <=? g). set (one := fun x => Z.of_nat 1 <=? x).
  set (both := fun q : Z * Z => two (fst q) && one (snd q)).
  assert (G : length (filter (fun x => negb (bad_draw x)) (triples n)) = ((n - 2) * (n - 1) * (n - 2))%nat).
  { rewrite (filter_ext _ (fun p => both (fst p) && two (snd p))).
    2: { intros [[g x] N]. unfold bad_draw. rewrite negb_involutive. reflexivity. }
    unfold triples. rewrite (prod_filter _ _ both two), prod_length. unfold both. rewrite (prod_filter _ _ two one), prod_length.
    unfold two, one. rewrite !draws_from by lia. reflexivity. }
  rewrite G, Lt in S.
  split; [|rewrite Lt; rewrite !Nat2Z.inj_mul; ring].
  apply (f_equal Z.of_nat) in S. rewrite Nat2Z.inj_add, !Nat2Z.inj_mul, !Nat2Z.inj_sub in S by lia.
  change (Z.of_nat 2) with 2 in S. change (Z.of_nat 1) with 1 in S.
  generalize dependent (Z.of_nat (length (filter bad_draw (triples n)))). intros z S.
  replace z with (Z.of_nat n * Z.of_nat n * Z.of_nat n - (Z.of_nat n - 2) * (Z.of_nat n - 1) * (Z.of_nat n - 2)) by lia. ring.
Qed.
Example C100_case : passes (TestSimpleExp 271828 314159 577215) /\ TestSimpleExp 271828 314159 1 = Panic /\
  5 * 1000000 ^ 2 - 8 * 1000000 + 4 = 4999992000004.
Proof. repeat split; vm_compute; reflexivity. Qed.

(** ** C101 *)
Lemma wrap_zero : forall s, wrapNumber s 0 = wrapNumber s Default.
Proof. reflexivity. Qed.
Lemma fs_loop_zero : forall sha is_prime f v, fs_loop sha is_prime f v 0 = fs_loop sha is_prime f v Default.
Proof. induction f as [|f IH]; intros v; cbn [fs_loop]; [reflexivity|]. destruct (is_prime v); [reflexivity|]. rewrite wrap_zero. apply IH. Qed.
Lemma prime_zero : forall sha is_prime f l, FS_HashToPrime sha is_prime f l 0 = FS_HashToPrime sha is_prime f l Default.
Proof. intros. unfold FS_HashToPrime. rewrite wrap_zero. apply fs_loop_zero. Qed.
Lemma loop_prime : forall sha is_prime f v l c, fs_loop sha is_prime f v l = Ret c -> is_prime c = true.
Proof.
  induction f as [|f IH]; intros v l c H; cbn [fs_loop] in H; [discriminate|]. destruct (is_prime v) eqn:E; [now injection H as <-|eauto].
Qed.
Lemma loop_not_panic : forall sha is_prime f v l, fs_loop sha is_prime f v l <> Panic.
Proof. induction f as [|f IH]; intros v l; cbn [fs_loop]; [discriminate|]. destruct (is_prime v); [discriminate|apply IH]. Qed.
(** a test that ends: the search for a prime has not run out *)
Definition ends {A} (o : outcome A) : Prop := o <> OutOfFuel.

(** always pass when they end, whatever the hash *)
Theorem C101_transcript : TestConstants = [] /\
  forall sha is_prime fuel, ends (TestTranscript sha is_prime fuel) -> passes (TestTranscript sha is_prime fuel).
Proof.
  split; [vm_compute; reflexivity|]. intros sha is_prime fuel. unfold ends, passes, TestTranscript, GetChallengeAndAppend, GetPrimeChallenge.
  cbn [info maxlength InitTranscript AppendSlice Append zero_transcript testStrings firstn app]. rewrite !prime_zero.
  destruct (FS_HashToPrime sha is_prime fuel _ Default) as [c| |] eqn:E; cbn [bind]; intros H; [|exfalso; eapply loop_not_panic; exact E|exfalso; now apply H].
  now rewrite Z.eqb_refl.
Qed.
Lemma length_ok : forall sha is_prime fuel l c, (forall s, String.length (sha s) = 32%nat) -> is_prime (2 ^ 239) = false ->
  FS_HashToPrime sha is_prime fuel l Max252 = Ret c -> is_prime c = true /\ length_checks c = [].
Proof.
  intros sha is_prime fuel l c Hs Hp E. destruct (C26_prime_challenge_bound_partial sha is_prime fuel l Hs Hp) as [H _].
  destruct (H c E) as (P & B & M). split; [assumption|]. unfold length_checks.
  rewrite !expect_true; [reflexivity| |]; apply Z.ltb_lt; [|exact M]. change min253 with (2 ^ 239). lia.
Qed.
Theorem C101_length : forall sha is_prime fuel, (forall s, String.length (sha s) = 32%nat) -> is_prime (2 ^ 239) = false ->
  (ends (TestPrimeChallengeLength sha is_prime fuel) -> passes (TestPrimeChallengeLength sha is_prime fuel)) /\
  (forall testInput, ends (FuzzChallenge sha is_prime fuel testInput) -> passes (FuzzChallenge sha is_prime fuel testInput)).
Proof.
  intros sha is_prime fuel Hs Hp. split.
  - unfold ends, passes, TestPrimeChallengeLength, GetChallengeAndAppend, GetPrimeChallenge.
    cbn [info maxlength InitTranscript Append].
    destruct (FS_HashToPrime sha is_prime fuel testStrings Max252) as [c1| |] eqn:E1; cbn [bind]; intros H; [|exfalso; eapply loop_not_panic; exact E1|exfalso; now apply H].
    cbn [info maxlength InitTranscript Append] in *.
    destruct (FS_HashToPrime sha is_prime fuel (testStrings ++ [dec c1]) Max252) as [c2| |] eqn:E2; cbn [bind] in *; [|exfalso; eapply loop_not_panic; exact E2|exfalso; now apply H].
    destruct (length_ok _ _ _ _ _ Hs Hp E1) as [-> ->]. destruct (length_ok _ _ _ _ _ Hs Hp E2) as [-> ->]. reflexivity.
  - intros testInput. unfold ends, passes, FuzzChallenge, GetChallengeAndAppend, GetPrimeChallenge. cbn [info maxlength InitTranscript Append].
    destruct (FS_HashToPrime sha is_prime fuel [testInput] Default) as [c1| |] eqn:E1; cbn [bind]; intros H; [|exfalso; eapply loop_not_panic; exact E1|exfalso; now apply H].
    destruct (FS_HashToPrime sha is_prime fuel [testInput] Max252) as [c2| |] eqn:E2; cbn [bind] in *; [|exfalso; eapply loop_not_panic; exact E2|exfalso; now apply H].
    rewrite (loop_prime _ _ _ _ _ _ E1). destruct (length_ok _ _ _ _ _ Hs Hp E2) as [-> ->]. reflexivity.
Qed.
(** TestChallenge. Full statement: it passes whenever it ends. False for a hash with equal values; what holds: it
    reports exactly one possible error, the coincidence of the first two challenges. *)
Theorem C101_challenge_partial : forall sha is_prime fuel, ends (TestChallenge sha is_prime fuel) ->
  exists c1 c2, FS_HashToPrime sha is_prime fuel testStrings Default = Ret c1 /\
    FS_HashToPrime sha is_prime fuel (testStrings ++ [dec c1]) Default = Ret c2 /\
    TestChallenge sha is_prime fuel = Ret (if c1 =? c2 then ["Updated transcript has old results"%string] else []).
Proof.
  intros sha is_prime fuel. unfold ends, TestChallenge, GetChallengeAndAppend, GetPrimeChallenge. cbn [info maxlength InitTranscript Append].
  destruct (FS_HashToPrime sha is_prime fuel testStrings Default) as [c1| |] eqn:E1; cbn [bind]; intros H; [|exfalso; eapply loop_not_panic; exact E1|exfalso; now apply H].
  cbn [info maxlength InitTranscript Append] in *.
  destruct (FS_HashToPrime sha is_prime fuel (testStrings ++ [dec c1]) Default) as [c2| |] eqn:E2; cbn [bind] in *; [|exfalso; eapply loop_not_panic; exact E2|exfalso; now apply H].
  exists c1, c2. split; [reflexivity|]. split; [exact E2|].
  rewrite Z.eqb_refl. destruct (c1 =? c2); reflexivity.
Qed.
Theorem C101_challenge_refuted : exists sha is_prime fuel, (forall s, String.length (sha s) = 32%nat) /\ is_prime (2 ^ 239) = false /\
  ends (TestChallenge sha is_prime fuel) /\ ~ passes (TestChallenge sha is_prime fuel).
Proof.
  exists (fun _ => big_bytes (2 ^ 255 + 7)), (fun z => z =? 2 ^ 255 + 7), 1%nat. split; [intros; vm_compute; reflexivity|].
  split; [vm_compute; reflexivity|]. split; vm_compute; discriminate.
Qed.
(** a hash that tells the transcripts apart *)
Definition len_sha (s : string) : string := big_bytes (2 ^ 255 + Z.of_nat (String.length s)).
Example C101_case : passes (TestChallenge len_sha (fun _ => true) 1) /\ passes (FuzzChallenge len_sha (fun z => negb (z =? 2 ^ 239)) 1 "Hello, world") /\
  passes (TestPrimeChallengeLength len_sha (fun z => negb (z =? 2 ^ 239)) 1).
Proof. repeat split; vm_compute; reflexivity. Qed.

(** ** C102 *)
Lemma fld_in : forall z, in_fr (fld z).
Proof. intros z. apply Z.mod_pos_bound. reflexivity. Qed.
Lemma map_fld_in : forall l, Forall in_fr (map fld l).
Proof. intros l. apply Forall_forall. intros x Hx. apply in_map_iff in Hx. destruct Hx as (y & <- & _). apply fld_in. Qed.
Lemma field_in : forall c, in_field (field_circuit c).
Proof. intros c. split; [repeat (apply Forall_cons; [apply fld_in|]); constructor|]. repeat split; apply map_fld_in. Qed.

(** what GenTestSet makes *)
Lemma assigned_test : forall poseidon sha is_prime fuel n m u, (forall x, is_prime x = true -> 0 < x) -> (2 <= n)%nat -> Z.of_nat n <= 2 ^ 31 ->
  GenTestSet poseidon sha is_prime fuel n TrustedSetup m = Ret u ->
  exists l1 l2, 0 < l1 < fr_modulus /\ 0 < l2 < fr_modulus /\ AssignCircuit u = Ret (test_circuit poseidon n l1 l2) /\
    PublicPart u = {| p_L1 := l1; p_L2 := l2; p_R1 := RemainderR1 (test_circuit poseidon n l1 l2); p_R2 := RemainderR2 (test_circuit poseidon n l1 l2);
      p_Epoch := 1000000; p_D1 := 2 ^ 1023 mod l1; p_D2 := 2 ^ 1023 mod l2 |}.
Proof.
  intros poseidon sha is_prime fuel n m u HI H2 Hn E. rewrite GenTestSet_spec in E by assumption.
  unfold GetChallengeAndAppend, GetPrimeChallenge in E.
  destruct (FS_HashToPrime sha is_prime fuel (info (SetupTranscript TrustedSetup 0 0 0 1000000)) _) as [l1| |] eqn:C1; cbn [bind] in E; try discriminate.
  destruct (FS_HashToPrime sha is_prime fuel (info (Append (SetupTranscript TrustedSetup 0 0 0 1000000) (dec l1))) _) as [l2| |] eqn:C2; cbn [bind] in E; try discriminate.
  cbv zeta in E. apply (f_equal (fun o => match o with Ret v => v | _ => u end)) in E. subst u.
  apply fs_prime_ret in C1. apply fs_prime_ret in C2. destruct C1 as [C1 [s1 E1]]. destruct C2 as [C2 [s2 E2]].
  apply HI in C1. apply HI in C2.
  pose proof (wrap_max_range s1) as [R1 _]. pose proof (wrap_max_range s2) as [R2 _]. change (maxlength _) with Max252 in E1. change (maxlength _) with Max252 in E2.
  rewrite <- E1 in R1. rewrite <- E2 in R2. clear E1 E2.
  assert (L : 2 ^ 239 < fr_modulus) by reflexivity.
  exists l1, l2. split; [lia|]. split; [lia|].
  destruct (test_circuit_facts poseidon n l1 l2 H2 Hn ltac:(lia) ltac:(lia)) as [F J]. set (c := test_circuit poseidon n l1 l2) in *.
  match goal with |- AssignCircuit ?u = _ /\ _ => assert (W : well_formed u) end.
  { split; cbn [u_ID u_OB u_OH u_OE u_UB]; [|exact (proj1 (proj2 J))]. change (UserID c) with (test_ids n). now rewrite test_ids_len. }
  split; [rewrite (proj2 (proj2 (C51_is_valid _)) W); reflexivity|reflexivity].
Qed.

Lemma gen_not_panic : forall poseidon sha is_prime fuel n m, (forall x, is_prime x = true -> 0 < x) -> (2 <= n)%nat -> Z.of_nat n <= 2 ^ 31 ->
  GenTestSet poseidon sha is_prime fuel n TrustedSetup m <> Panic.
Proof.
  intros poseidon sha is_prime fuel n m HI H2 Hn. rewrite GenTestSet_spec by assumption.
  unfold GetChallengeAndAppend, GetPrimeChallenge.
  destruct (FS_HashToPrime sha is_prime fuel (info (SetupTranscript TrustedSetup 0 0 0 1000000)) _) as [l1| |] eqn:C1; cbn [bind];
    [|exfalso; eapply loop_not_panic; exact C1|discriminate].
  destruct (FS_HashToPrime sha is_prime fuel (info (Append (SetupTranscript TrustedSetup 0 0 0 1000000) (dec l1))) _) as [l2| |] eqn:C2; cbn [bind];
    [|exfalso; eapply loop_not_panic; exact C2|]; discriminate.
Qed.

Theorem C102_public_witness : forall poseidon sha is_prime fuel m, (forall x, is_prime x = true -> 0 < x) ->
  ends (TestPublicWitness sha is_prime poseidon fuel m) -> passes (TestPublicWitness sha is_prime poseidon fuel m).
Proof.
  intros poseidon sha is_prime fuel m HI. unfold ends, passes, TestPublicWitness.
  destruct (GenTestSet poseidon sha is_prime fuel 10 TrustedSetup m) as [u| |] eqn:E; cbn [bind]; intros H.
  - destruct (assigned_test poseidon sha is_prime fuel 10 m u HI ltac:(lia) ltac:(vm_compute; discriminate) E) as (l1 & l2 & _ & _ & -> & P). cbn [bind] in *.
    rewrite P. unfold NewWitness. cbn [fst]. rewrite !public_vector_eq.
    cbn [set_epoch test_circuit AssignCircuitHelper p_L1 p_L2 p_R1 p_R2 p_Epoch p_D1 p_D2 ChallengeL1 ChallengeL2 RemainderR1 RemainderR2 CurrentEpochNum DeltaModL1 DeltaModL2].
    unfold vector_eqb. destruct (list_eq_dec Z.eq_dec _ _) as [_|D]; [|exfalso; now apply D].
    destruct (list_eq_dec Z.eq_dec _ _) as [D|_]; [|reflexivity]. exfalso.
    apply (f_equal (fun l => nth 4 l 0)) in D. cbn [map nth] in D. revert D. vm_compute. discriminate.
  - exfalso. exact (gen_not_panic poseidon sha is_prime fuel 10 m HI ltac:(lia) ltac:(vm_compute; discriminate) E).
  - exfalso. now apply H.
Qed.

(** the circuit test: SolvingSucceeded. Full statement: it holds for every set made. False (C55): a leaf may wrap around the field. *)
Lemma solving_gen : forall n poseidon mulmod sha is_prime fuel m P, mulmod_sound mulmod -> mulmod_complete mulmod ->
  (forall l, in_fr (poseidon l)) -> (forall x, is_prime x = true -> 0 < x) -> (2 <= n)%nat -> Z.of_nat n <= 2 ^ 31 ->
  (do testSet <- GenTestSet poseidon sha is_prime fuel n TrustedSetup m; do c <- AssignCircuit testSet; Ret (satisfied poseidon mulmod (field_circuit c))) = Ret P ->
  exists u c, GenTestSet poseidon sha is_prime fuel n TrustedSetup m = Ret u /\ AssignCircuit u = Ret c /\ users c = n /\
    (no_wrap poseidon c -> P).
Proof.
  intros n poseidon mulmod sha is_prime fuel m P MS MC HP HI H2 Hn.
  destruct (GenTestSet poseidon sha is_prime fuel n TrustedSetup m) as [u| |] eqn:E; cbn [bind]; intros H; try discriminate.
  destruct (C55_honest_partial poseidon mulmod sha is_prime fuel n TrustedSetup m MS MC HP HI H2 Hn) as [_ C].
  destruct (C u E) as (c & Ec & U & _ & _ & _ & S). rewrite Ec in H. cbn [bind] in H.
  apply (f_equal (fun o => match o with Ret v => v | _ => P end)) in H. subst P.
  exists u, c. split; [reflexivity|]. split; [exact Ec|]. split; [exact U|exact S].
Qed.
Theorem C102_solving_partial : forall poseidon mulmod sha is_prime fuel m P, mulmod_sound mulmod -> mulmod_complete mulmod ->
  (forall l, in_fr (poseidon l)) -> (forall x, is_prime x = true -> 0 < x) ->
  TestZkMultiSwap sha is_prime poseidon fuel mulmod m = Ret P ->
  exists u c, GenTestSet poseidon sha is_prime fuel 512 TrustedSetup m = Ret u /\ AssignCircuit u = Ret c /\ users c = 512%nat /\
    (no_wrap poseidon c -> P).
Proof.
  intros poseidon mulmod sha is_prime fuel m P MS MC HP HI H.
  exact (solving_gen 512 poseidon mulmod sha is_prime fuel m P MS MC HP HI (proj1 (Nat.leb_le 2 512) eq_refl) (proj1 (Z.leb_le (Z.of_nat 512) (2 ^ 31)) eq_refl) H).
Qed.

Definition range_case : list edit := [OriginalBalance0 1000000000; UpdatedBalance0 1000000000].
(** the remainders of an assignment are the ones the leaves give *)
Definition remainders_match (poseidon : list Z -> Z) (c : Circuit) : Prop :=
  RemainderR1 c = (prod_upto (users c) (fun i => (old_leaf poseidon c i + DeltaModL1 c) mod fr_modulus) * randomizers poseidon (Randomizer1 c)) mod ChallengeL1 c /\
  RemainderR2 c = (prod_upto (users c) (fun i => (new_leaf poseidon c i + DeltaModL2 c) mod fr_modulus) * randomizers poseidon (Randomizer2 c)) mod ChallengeL2 c.

Lemma sum_case : forall poseidon mulmod l1 l2 es, In es [[UpdatedBalance0 5]; [OSum 10]; [USum 10]; [OriginalBalance0 10]] ->
  ~ satisfied poseidon mulmod (fail_case (test_circuit poseidon 10 l1 l2) es).
Proof.
  intros poseidon mulmod l1 l2 es Hin H. unfold fail_case in H. pose proof (field_in (fold_left apply_edit es (test_circuit poseidon 10 l1 l2))) as F.
  pose proof (C53_circuit_law _ _ _ F H) as L. clear H F.
  assert (U : Z.of_nat (users (field_circuit (fold_left apply_edit es (test_circuit poseidon 10 l1 l2)))) < 2 ^ 200).
  { destruct Hin as [<-|[<-|[<-|[<-|[]]]]]; reflexivity. }
  specialize (L U). clear U. destruct Hin as [<-|[<-|[<-|[<-|[]]]]]; lazy in L; discriminate.
Qed.
Lemma rem_case : forall poseidon mulmod c es, es = [R1 (ChallengeL1 c)] \/ es = [R2 (ChallengeL2 c)] -> ~ satisfied poseidon mulmod (fail_case c es).
Proof.
  intros poseidon mulmod c es Hes H. unfold fail_case in H. pose proof (C52_integrity _ _ _ (field_in _) H) as J.
  destruct J as (_ & _ & _ & _ & _ & _ & _ & _ & _ & _ & J1 & J2 & _).
  destruct Hes as [->| ->]; cbn [fold_left apply_edit field_circuit RemainderR1 RemainderR2 ChallengeL1 ChallengeL2] in *; lia.
Qed.
Definition ten : list Z := [1; 3; 5; 7; 9; 11; 13; 15; 17; 19].
Lemma range_integrity : forall poseidon l1 l2, 0 < l1 < fr_modulus -> 0 < l2 < fr_modulus ->
  integrity (fail_case (test_circuit poseidon 10 l1 l2) range_case).
Proof.
  intros poseidon l1 l2 H1 H2.
  destruct (test_circuit_facts poseidon 10 l1 l2 ltac:(lia) ltac:(vm_compute; discriminate) H1 H2) as [F J].
  destruct J as (_ & _ & J3 & J4 & _ & _ & _ & _ & _ & _ & J5 & J6 & J7 & J8).
  destruct F as (F & _). rewrite Forall_forall in F. unfold in_fr in F.
  unfold fail_case, range_case, integrity. cbn [fold_left].
  cbn [apply_edit field_circuit ChallengeL1 ChallengeL2 RemainderR1 RemainderR2 CurrentEpochNum DeltaModL1 DeltaModL2 Randomizer1 Randomizer2 OriginalSum UpdatedSum
    UserID OriginalBalances OriginalHashes OriginalUpdEpoch UpdatedBalances].
  unfold users in *. cbn [UserID] in *.
  assert (Q : forall z, 0 <= z < fr_modulus -> fld z = z) by (intros z Hz; now apply Z.mod_small).
  assert (E1 : map fld (UserID (test_circuit poseidon 10 l1 l2)) = ten) by reflexivity.
  split; [vm_compute; lia|]. split; [repeat split|].
  rewrite E1. change (UserID (test_circuit poseidon 10 l1 l2)) with ten in J3, J4.
  split; [exact J3|]. split; [exact J4|].
  change (map fld (set_first (OriginalBalances (test_circuit poseidon 10 l1 l2)) 1000000000)) with [1000000000; 3; 5; 7; 9; 11; 13; 15; 17; 19].
  change (map fld (set_first (UpdatedBalances (test_circuit poseidon 10 l1 l2)) 1000000000)) with [1000000000; 3; 5; 7; 9; 11; 13; 15; 17; 19].
  change (map fld (OriginalUpdEpoch (test_circuit poseidon 10 l1 l2))) with [10; 10; 10; 10; 10; 10; 10; 10; 10; 10].
  change (fld (CurrentEpochNum (test_circuit poseidon 10 l1 l2))) with 1000000.
  change (fld (OriginalSum (test_circuit poseidon 10 l1 l2))) with 10000. change (fld (UpdatedSum (test_circuit poseidon 10 l1 l2))) with 10000.
  change (fld (Randomizer1 (test_circuit poseidon 10 l1 l2))) with 200. change (fld (Randomizer2 (test_circuit poseidon 10 l1 l2))) with 300.
  change (2 ^ 32) with 4294967296.
  split. { intros i Hi. match type of Hi with (_ < ?n)%nat => change n with 10%nat in Hi end. do 10 (destruct i as [|i]; [cbn [nth]; lia|]). lia. }
  do 5 (split; [lia|]).
  rewrite !Q; [|apply F; cbn [In]; tauto..]. auto.
Qed.

Theorem C102_fail_partial : forall poseidon mulmod sha is_prime fuel m Ps, (forall x, is_prime x = true -> 0 < x) ->
  TestZkMultiSwapFailCases sha is_prime poseidon fuel mulmod m = Ret Ps ->
  exists u c sum1 sum2 sum3 sum4 range rem1 rem2,
    GenTestSet poseidon sha is_prime fuel 10 TrustedSetup m = Ret u /\ AssignCircuit u = Ret c /\
    Ps = [sum1; sum2; sum3; sum4; range; rem1; rem2] /\
    (* wrong sums and wrong remainders are refused, whatever Poseidon and MulModP are *)
    sum1 /\ sum2 /\ sum3 /\ sum4 /\ rem1 /\ rem2 /\
    (* the case named after the range respects every range and the sum; it is refused exactly when the leaves give other remainders *)
    integrity (fail_case c range_case) /\
    (mulmod_sound mulmod -> mulmod_complete mulmod -> (forall l, in_fr (poseidon l)) ->
      (range <-> ~ remainders_match poseidon (fail_case c range_case))).
Proof.
  intros poseidon mulmod sha is_prime fuel m Ps HI. unfold TestZkMultiSwapFailCases.
  destruct (GenTestSet poseidon sha is_prime fuel 10 TrustedSetup m) as [u| |] eqn:E; cbn [bind]; intros H; try discriminate.
  destruct (assigned_test poseidon sha is_prime fuel 10 m u HI ltac:(lia) ltac:(vm_compute; discriminate) E) as (l1 & l2 & B1 & B2 & Ec & _).
  rewrite Ec in H. cbn [bind] in H. apply (f_equal (fun o => match o with Ret v => v | _ => Ps end)) in H. subst Ps.
  exists u. eexists. do 7 eexists. split; [reflexivity|]. split; [exact Ec|]. split; [reflexivity|].
  split; [apply sum_case; cbn [In]; tauto|]. split; [apply sum_case; cbn [In]; tauto|]. split; [apply sum_case; cbn [In]; tauto|].
  split; [apply sum_case; cbn [In]; tauto|]. split; [apply rem_case; now left|]. split; [apply rem_case; now right|].
  pose proof (range_integrity poseidon l1 l2 B1 B2) as J. split; [exact J|].
  intros MS MC HP. unfold fail_case in *. fold range_case. rewrite (circuit_meaning poseidon mulmod _ MS MC HP (field_in _)). unfold remainders_match.
  split; [|tauto]. intros N M. apply N. split; [exact J|]. split; [tauto|]. split; [tauto|]. lazy. reflexivity.
Qed.

(** Full statement: all seven cases are refused. It is false for a Poseidon that gives the first leaf the same value for
    the balances 1 and 1000000000: no constraint of the circuit speaks of the case otherwise. *)
Theorem C102_fail_refuted : exists poseidon sha is_prime fuel m Ps, (forall l, in_fr (poseidon l)) /\ (forall x, is_prime x = true -> prime x) /\
  TestZkMultiSwapFailCases sha is_prime poseidon fuel exact_mulmod m = Ret Ps /\ ~ Forall (fun P => P) Ps.
Proof.
  set (pos := fun _ : list Z => 1).
  assert (HP : forall l, in_fr (pos l)) by (intros l; unfold in_fr, pos; split; [lia|reflexivity]).
  assert (HI : forall x, five x = true -> prime x) by (intros x Hx; apply Z.eqb_eq in Hx; subst x; exact prime_5).
  assert (HI0 : forall x, five x = true -> 0 < x) by (intros x Hx; apply Z.eqb_eq in Hx; lia).
  exists pos, (one_byte "005"%char), five, 5%nat, 3.
  assert (G : exists u c, GenTestSet pos (one_byte "005"%char) five 5 10 TrustedSetup 3 = Ret u /\ AssignCircuit u = Ret c /\
    remainders_match pos (fail_case c range_case)).
  { rewrite GenTestSet_spec by (exact HI0 || lia || (vm_compute; discriminate)).
    do 2 eexists. split; [vm_compute; reflexivity|]. split; [vm_compute; reflexivity|]. split; vm_compute; reflexivity. }
  destruct G as (u & c & Gu & Gc & M).
  assert (E : TestZkMultiSwapFailCases (one_byte "005"%char) five pos 5 exact_mulmod 3 =
    Ret (map (fun es => ~ satisfied pos exact_mulmod (fail_case c es)) (fail_cases c))).
  { unfold TestZkMultiSwapFailCases. rewrite Gu. cbn [bind]. rewrite Gc. reflexivity. }
  eexists. split; [exact HP|]. split; [exact HI|]. split; [exact E|].
  destruct (C102_fail_partial pos exact_mulmod _ _ _ _ _ HI0 E) as (u' & c' & s1 & s2 & s3 & s4 & r & r1 & r2 & Eu & Ec & Er & _ & _ & _ & _ & _ & _ & _ & X).
  assert (u' = u) by (rewrite Gu in Eu; congruence). subst u'. assert (c' = c) by (rewrite Gc in Ec; congruence). subst c'.
  rewrite Er. intros A. assert (HR : r) by (rewrite Forall_forall in A; apply A; cbn [In]; tauto).
  apply X in HR; [|exact exact_sound|exact exact_complete|exact HP]. apply HR, M.
Qed.
(** a Poseidon with which the test passes *)
Example C102_case : exists u c, GenTestSet toy_pos (one_byte "a"%char) (fun x => x =? 97) 5 10 TrustedSetup 3 = Ret u /\ AssignCircuit u = Ret c /\
  ~ remainders_match toy_pos (fail_case c range_case) /\ no_wrap toy_pos c /\ RemainderR1 c <> 0.
Proof.
  rewrite GenTestSet_spec by (lia || (vm_compute; discriminate) || (intros x Hx; apply Z.eqb_eq in Hx; lia)).
  do 2 eexists. split; [vm_compute; reflexivity|]. split; [vm_compute; reflexivity|]. split; [intros [H _]; vm_compute in H; discriminate|].
  split; [|vm_compute; discriminate].
  intros i Hi. cbn in Hi. do 10 (destruct i as [|i]; [split; vm_compute; reflexivity|]). lia.
Qed.

Print Assumptions C99_setup.
Print Assumptions C99_accumulate.
Print Assumptions C99_parallel.
Print Assumptions C99_product.
Print Assumptions C99_GCB.
Print Assumptions C99_table.
Print Assumptions C100_simple_exp_refuted.
Print Assumptions C100_simple_exp_partial.
Print Assumptions C100_count.
Print Assumptions C101_transcript.
Print Assumptions C101_length.
Print Assumptions C101_challenge_partial.
Print Assumptions C101_challenge_refuted.
Print Assumptions C102_public_witness.
Print Assumptions C102_solving_partial.
Print Assumptions C102_fail_partial.
Print Assumptions C102_fail_refuted.
