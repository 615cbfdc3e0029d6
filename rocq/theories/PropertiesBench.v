(** Theorems for property C117: what the benchmarks measure. *)
From Coq Require Import ZArith Znumtheory Bool Lia String List ZifyNat.
From Verif Require Import GoBig GoBigFacts AccModel AccFacts AccProofs Spec HashModel HashProofs IterModel IterProofs ForkJoin ParModel ParProofs ExpModel ExpProofs TableModel
  PropertiesAcc PropertiesHash PropertiesExp BenchModel.
Import ListNotations.
Open Scope Z_scope.

Lemma map_outcome_all : forall A B (f : A -> outcome B) (g : A -> B) l, (forall a, In a l -> f a = Ret (g a)) -> map_outcome f l = Ret (map g l).
Proof. intros A B f g l. induction l as [|a l IH]; intros H; [reflexivity|]. cbn [map_outcome map]. rewrite H by now left. cbn [bind]. rewrite IH by (intros; apply H; now right). reflexivity. Qed.
Lemma map_outcome_some_panic : forall A B (f : A -> outcome B) l a, (forall a, f a <> OutOfFuel) -> In a l -> f a = Panic -> map_outcome f l = Panic.
Proof. intros A B f l a Hf Hin Ha. apply map_outcome_panic; [exact Hf|]. apply Exists_exists. now exists a. Qed.
Lemma map_const : forall A B (b : B) (l : list A), map (fun _ => b) l = repeat b (length l).
Proof. intros A B b l. induction l; cbn; congruence. Qed.
Lemma loop_const : forall A lo hi (body : nat -> outcome A) v, (forall i, (lo <= i < hi)%nat -> body i = Ret v) -> loop lo hi body = Ret (repeat v (hi - lo)).
Proof. intros A lo hi body v H. unfold loop. rewrite (map_outcome_all _ _ body (fun _ => v)); [now rewrite map_const, seq_length|]. intros i Hi. apply in_seq in Hi. apply H. lia. Qed.
Lemma loop_all : forall A lo hi (body : nat -> outcome A) g, (forall i, (lo <= i < hi)%nat -> body i = Ret (g i)) -> loop lo hi body = Ret (map g (seq lo (hi - lo))).
Proof. intros A lo hi body g H. apply map_outcome_all. intros i Hi. apply in_seq in Hi. apply H. lia. Qed.

(** ** the random set *)
Lemma random_set_last : forall size draws, (0 < size)%nat ->
  random_set size draws = match draws (size - 1)%nat with None => None | Some _ => Some (map draws (seq 0 size)) end.
Proof.
  intros size draws H. unfold random_set. destruct size as [|k]; [lia|]. replace (S k - 1)%nat with k by lia. rewrite seq_S, !map_app. cbn [map plus]. rewrite last_last. now destruct (draws k).
Qed.
Lemma elem_draws : forall size draws i, (i < size)%nat -> elem (map draws (seq 0 size)) i = deref (draws i).
Proof.
  intros size draws i H. unfold elem, go_index. rewrite (map_nth_error draws i (seq 0 size) (d := i)); [reflexivity|]. rewrite (nth_error_nth' _ 0%nat) by (rewrite seq_length; lia). now rewrite seq_nth.
Qed.
Lemma elem_outside : forall size draws i, (size <= i)%nat -> elem (map draws (seq 0 size)) i = Panic.
Proof. intros size draws i H. unfold elem, go_index. replace (nth_error _ i) with (@None (option Z)); [reflexivity|]. symmetry. apply nth_error_None. now rewrite map_length, seq_length. Qed.
Lemma elem_fuel : forall set i, elem set i <> OutOfFuel.
Proof. intros set i. unfold elem, go_index. destruct (nth_error set i) as [[x|]|]; cbn; discriminate. Qed.

Lemma map_outcome_fuel : forall A B (f : A -> outcome B) l, (forall a, f a <> OutOfFuel) -> map_outcome f l <> OutOfFuel.
Proof. intros A B f l H. induction l as [|a l IH]; [discriminate|]. cbn [map_outcome]. specialize (H a). destruct (f a); cbn [bind]; [|discriminate|congruence]. destruct (map_outcome f l); cbn [bind]; congruence. Qed.
Lemma multi_exp_fuel : forall b n l, multi_exp b n l <> OutOfFuel.
Proof. intros b n l. apply map_outcome_fuel. intros e. unfold deref. destruct (big_exp b e n); discriminate. Qed.
Lemma body_fuel : forall set i, (do e <- elem set i; SimpleExp gG e gN) <> OutOfFuel.
Proof.
  intros set i. pose proof (elem_fuel set i). destruct (elem set i) as [e| |]; cbn [bind]; [|congruence..]. clear. set (a := gG). set (b := gN). clearbody a b.
  destruct (Z_lt_dec 1 a), (Z_le_dec 1 e), (Z_lt_dec 1 b); try (rewrite (proj1 (C21_SimpleExp_partial a e b)) by lia; discriminate).
  destruct (C21_SimpleExp_partial a e b) as [_ S]. destruct (S ltac:(lia) ltac:(lia) ltac:(lia)) as [[v ->] _]. discriminate.
Qed.
Lemma bench_set_length : forall n set, GenBenchSet n = Ret set -> length set = Z.to_nat n.
Proof. intros n set E. unfold GenBenchSet in E. destruct (n <? 0); [discriminate E|]. injection E as <-. now rewrite map_length, seq_length. Qed.
Lemma setup_facts : 1 < gN /\ 1 < gG < gN.
Proof. unfold gN, gG. destruct C24_trusted_setup as (_ & _ & H & _). set (a := sG TrustedSetup) in *. set (b := sN TrustedSetup) in *. clearbody a b. lia. Qed.
Lemma hash_nonneg : forall sha is_prime fuel p, HashToPrime sha is_prime fuel testString = Ret p -> 0 <= p.
Proof.
  intros sha is_prime fuel p E. assert (G : GenRepresentatives sha is_prime (fun _ => 0) fuel [testString] HashToPrimeFromSha256 = Ret [p]).
  { unfold GenRepresentatives. cbn [Z.eqb HashToPrimeFromSha256 Pos.eqb]. unfold genRepWithHashToPrimeFromSHA256. cbn [map_outcome]. rewrite E. reflexivity. }
  apply GenRep_nonneg in G; [|intros; lia]. now inversion G.
Qed.

Lemma big_size : Z.of_nat bigSize = 10000.
Proof. unfold bigSize. lia. Qed.
Lemma simple_exp_ret : forall g e N, 1 < g -> 1 <= e -> 1 < N -> exists v, SimpleExp g e N = Ret v.
Proof. intros g e N H1 H2 H3. exact (proj1 (proj2 (C21_SimpleExp_partial g e N) H1 H2 H3)). Qed.
Lemma last_map_seq : forall (g : nat -> Z) n lo, (0 < n)%nat -> last (map g (seq lo n)) 0 = g (lo + n - 1)%nat.
Proof. intros g n lo H. destruct n as [|k]; [lia|]. rewrite seq_S, map_app. cbn [map]. rewrite last_last. f_equal. lia. Qed.
Lemma mul_value : forall N set d n, length set = n -> (forall i, (i < n)%nat -> elem set i = Ret (d i)) -> (2 <= n)%nat -> 0 < N ->
  groupElementMul N set = Ret ((d (n - 1)%nat * d (n - 1 - 1)%nat) mod N).
Proof.
  intros N set d n L EL H HN. unfold groupElementMul. rewrite L.
  assert (Q : loop 1 n (fun i => do a <- elem set i; do b <- elem set (i - 1); go_mod (a * b) N) = Ret (map (fun i => (d i * d (i - 1)%nat) mod N) (seq 1 (n - 1)))).
  { apply loop_all. intros i Hi. rewrite (EL i), (EL (i - 1)%nat) by lia. cbn [bind]. unfold go_mod. destruct (Z.eqb_spec N 0); [lia|]. now rewrite emod_pos by lia. }
  rewrite Q. cbn [bind]. rewrite last_map_seq by lia. now replace (1 + (n - 1) - 1)%nat with (n - 1)%nat by lia.
Qed.
Lemma square_value : forall N set d n, length set = n -> (forall i, (i < n)%nat -> elem set i = Ret (d i)) -> (2 <= n)%nat -> 0 < N ->
  groupElementSquare N set = Ret (d (n - 1)%nat ^ 2 mod N).
Proof.
  intros N set d n L EL H HN. unfold groupElementSquare. rewrite L.
  assert (Q : loop 1 n (fun i => do a <- elem set i; Ret (exp_recv 0 a 2 N)) = Ret (map (fun i => d i ^ 2 mod N) (seq 1 (n - 1)))).
  { apply loop_all. intros i Hi. rewrite (EL i) by lia. cbn [bind]. now rewrite exp_recv_nonneg by lia. }
  rewrite Q. cbn [bind]. rewrite last_map_seq by lia. now replace (1 + (n - 1) - 1)%nat with (n - 1)%nat by lia.
Qed.
Opaque bigSize gN gG.

(** ** C117: the results of the calls a benchmark times
    [d] are the numbers drawn. The benchmarks that count with b.N make b.N calls, all of the right result; what the
    others do instead is stated exactly. *)
Theorem C117_calls_partial : forall sha is_prime poseidon fuel d bN, (forall l, 0 <= poseidon l) -> (forall i, 0 <= d i) ->
  let draws i := Some (d i) in
  (* b.N calls *)
  (forall p, HashToPrime sha is_prime fuel testString = Ret p ->
     BenchmarkHashToPrime sha is_prime fuel bN = Ret (repeat p bN) /\
     BenchmarkAccumulateNew256bits sha is_prime fuel bN = Ret (repeat (gG ^ p mod gN) bN)) /\
  (forall rep, bench_reps sha is_prime poseidon fuel = Ret rep ->
     length rep = 1000%nat /\ exists proofs t, witnesses gG gN rep proofs /\
       BenchmarkAccAndProve sha is_prime poseidon fuel bN = Ret (repeat (gG ^ product rep mod gN, proofs) bN) /\
       BenchmarkProveMembership sha is_prime poseidon fuel bN = Ret (repeat proofs bN) /\
       BenchmarkProveMembershipIter sha is_prime poseidon fuel bN = Ret (repeat proofs bN) /\
       BenchmarkProveMembershipParallel sha is_prime poseidon fuel bN = Ret (repeat t bN) /\ always_returns (pm_expand gN) t proofs) /\
  (forall testSize set reps, GenBenchSet testSize = Ret set -> GenRepresentatives sha is_prime poseidon fuel set DIHashFromPoseidon = Ret reps ->
     BenchmarkAccumulate sha is_prime poseidon fuel testSize bN = Ret (repeat (gG ^ product reps mod gN) bN)) /\
  (BenchmarkGroupElementMul draws bN = Ret (Some (repeat ((d (bigSize - 1)%nat * d (bigSize - 1 - 1)%nat) mod gN) bN))) /\
  (BenchmarkGroupElementSquare draws bN = Ret (Some (repeat (d (bigSize - 1)%nat ^ 2 mod gN) bN))) /\
  (* b.N calls up to 10000, then a crash *)
  (BenchmarkExp draws bN = if (bN <=? bigSize)%nat then Ret (Some (map (fun i => gG ^ d i mod gN) (seq 0 bN))) else Panic) /\
  (* one call fewer, and the same crash *)
  (BenchmarkDoubleExp draws bN = if (bN <=? bigSize)%nat then Ret (Some (map (fun i => [gG ^ d (i - 1)%nat mod gN; gG ^ d i mod gN]) (seq 1 (bN - 1)))) else Panic) /\
  (* four calls fewer, all the same one *)
  (BenchmarkFourfoldExp draws bN = Ret (Some (repeat (map (fun i => gG ^ d i mod gN) [0; 1; 2; 3]%nat) (bN - 4)))) /\
  (* 100 and 9999 calls whatever b.N; SimpleExp crashes on a zero *)
  ((forall i, (i < 100)%nat -> 1 <= d i) -> exists l, BenchmarkSimpleExp draws bN = Ret (Some l) /\ length l = 100%nat) /\
  (forall i, (i < 100)%nat -> d i = 0 -> BenchmarkSimpleExp draws bN = Panic) /\
  (exists l, BenchmarkGCB draws bN = Ret (Some l) /\ Z.of_nat (length l) = 9999).
Proof.
  intros sha is_prime poseidon fuel d bN Hp Hd draws. destruct setup_facts as [HN HG].
  assert (RS : forall size, (0 < size)%nat -> random_set size draws = Some (map draws (seq 0 size))) by (intros size H; now rewrite random_set_last).
  pose proof big_size as BIG. assert (B0 : (4 < bigSize)%nat) by lia.
  assert (EL : forall i, (i < bigSize)%nat -> elem (map draws (seq 0 bigSize)) i = Ret (d i)) by (intros; now rewrite elem_draws).
  assert (LEN : length (map draws (seq 0 bigSize)) = bigSize) by (now rewrite map_length, seq_length).
  repeat match goal with |- _ /\ _ => split end.
  - intros p E. pose proof (hash_nonneg _ _ _ _ E). split; [unfold BenchmarkHashToPrime; rewrite (loop_const _ _ _ _ p) by (intros; exact E); now rewrite Nat.sub_0_r|].
    unfold BenchmarkAccumulateNew256bits. rewrite E. cbn [bind]. rewrite (loop_const _ _ _ _ (gG ^ p mod gN)) by (intros; rewrite AccumulateNew_spec by lia; reflexivity). now rewrite Nat.sub_0_r.
  - intros rep E. unfold bench_reps in E. destruct (GenBenchSet 1000) as [set| |] eqn:ES; try discriminate E. cbn [bind] in E.
    pose proof (bench_set_length _ _ ES) as L. change (Z.to_nat 1000) with 1000%nat in L.
    pose proof (GenRep_length _ _ _ _ _ _ _ E) as LR. pose proof (GenRep_nonneg _ _ _ _ _ _ _ Hp E) as NR. assert (NE : rep <> []) by (intros ->; rewrite L in LR; discriminate LR).
    split; [now rewrite LR|]. assert (BR : bench_reps sha is_prime poseidon fuel = Ret rep) by (unfold bench_reps; rewrite ES; exact E).
    exists (wit gG gN 1 rep), (PMParallel gG rep 8). split; [apply wit_witnesses; lia|].
    split. { unfold BenchmarkAccAndProve. rewrite ES. cbn [bind]. rewrite (loop_const _ _ _ _ (gG ^ product rep mod gN, wit gG gN 1 rep)); [now rewrite Nat.sub_0_r|].
      intros _ _. unfold AccAndProve. rewrite E. cbn [bind]. now apply AccAndProve_rep_spec; try lia. }
    unfold BenchmarkProveMembership, BenchmarkProveMembershipIter, BenchmarkProveMembershipParallel. rewrite BR. cbn [bind].
    split. { rewrite (loop_const _ _ _ _ (wit gG gN 1 rep)); [now rewrite Nat.sub_0_r|]. intros _ _. apply ProveMembership_wit; auto; try lia; right; lia. }
    split. { rewrite (loop_const _ _ _ _ (wit gG gN 1 rep)); [now rewrite Nat.sub_0_r|]. intros _ _. apply ProveMembershipIter_val_spec; auto; try lia; right; lia. }
    split. { rewrite (loop_const _ _ _ _ (PMParallel gG rep 8)); [now rewrite Nat.sub_0_r|reflexivity]. }
    apply (pm_always_returns gN (PMParallel gG rep 8)); [lia|]. split; [exact NR|]. split; [right; cbn [pm_base]; lia|exact NE].
  - intros testSize set reps E1 E2. unfold BenchmarkAccumulate. rewrite E1. cbn [bind]. rewrite E2. cbn [bind].
    rewrite (loop_const _ _ _ _ (gG ^ product reps mod gN)); [now rewrite Nat.sub_0_r|]. intros _ _. rewrite accumulate_val_spec'; [reflexivity|lia|lia|]. exact (GenRep_nonneg _ _ _ _ _ _ _ Hp E2).
  - unfold BenchmarkGroupElementMul. rewrite RS by lia. cbn [timed]. set (set := map draws (seq 0 bigSize)) in *.
    rewrite (loop_const _ _ _ _ ((d (bigSize - 1)%nat * d (bigSize - 1 - 1)%nat) mod gN)); [cbn [bind]; now rewrite Nat.sub_0_r|]. intros _ _.
    apply (mul_value gN set d bigSize LEN EL); lia.
  - unfold BenchmarkGroupElementSquare. rewrite RS by lia. cbn [timed]. set (set := map draws (seq 0 bigSize)) in *.
    rewrite (loop_const _ _ _ _ (d (bigSize - 1)%nat ^ 2 mod gN)); [cbn [bind]; now rewrite Nat.sub_0_r|]. intros _ _.
    apply (square_value gN set d bigSize LEN EL); lia.
  - unfold BenchmarkExp. rewrite RS by lia. cbn [timed]. destruct (Nat.leb_spec bN bigSize).
    + erewrite loop_all with (g := fun i => gG ^ d i mod gN); [cbn [bind]; now rewrite Nat.sub_0_r|]. intros i Hi. rewrite EL by lia. cbn [bind]. rewrite exp_recv_nonneg by (lia || apply Hd). reflexivity.
    + unfold loop. rewrite (map_outcome_some_panic _ _ _ _ bigSize); [reflexivity| |apply in_seq; lia|].
      * intros a. pose proof (elem_fuel (map draws (seq 0 bigSize)) a). destruct (elem _ a); cbn [bind]; congruence.
      * rewrite elem_outside by lia. reflexivity.
  - unfold BenchmarkDoubleExp. rewrite RS by lia. cbn [timed]. destruct (Nat.leb_spec bN bigSize).
    + erewrite loop_all with (g := fun i => [gG ^ d (i - 1)%nat mod gN; gG ^ d i mod gN]); [reflexivity|]. intros i Hi. rewrite (EL i), (EL (i - 1)%nat) by lia. cbn [bind]. rewrite multi_exp_spec; [reflexivity|lia|repeat constructor; apply Hd].
    + unfold loop. rewrite (map_outcome_some_panic _ _ _ _ bigSize); [reflexivity| |apply in_seq; lia|].
      * intros a. pose proof (elem_fuel (map draws (seq 0 bigSize)) a). pose proof (elem_fuel (map draws (seq 0 bigSize)) (a - 1)%nat).
        destruct (elem _ (a - 1)%nat) as [x| |]; cbn [bind]; [|congruence..]. destruct (elem _ a) as [y| |]; cbn [bind]; [|congruence..]. apply multi_exp_fuel.
      * rewrite EL by lia. cbn [bind]. rewrite elem_outside by lia. reflexivity.
  - unfold BenchmarkFourfoldExp. rewrite RS by lia. cbn [timed]. rewrite (loop_const _ _ _ _ (map (fun i => gG ^ d i mod gN) [0; 1; 2; 3]%nat)); [reflexivity|].
    intros i Hi. rewrite (EL 0%nat), (EL 1%nat), (EL 2%nat), (EL 3%nat) by lia. cbn [bind]. rewrite multi_exp_spec; [reflexivity|lia|repeat constructor; apply Hd].
  - intros H. unfold BenchmarkSimpleExp. rewrite RS by (unfold simpleSize; lia). cbn [timed].
    assert (G1 : 1 < gG) by lia. assert (N1 : 1 < gN) by lia.
    assert (X : forall i, exists v, (i < 100)%nat -> SimpleExp gG (d i) gN = Ret v).
    { intros i. destruct (le_lt_dec 100 i); [exists 0; lia|]. destruct (simple_exp_ret gG (d i) gN) as [v V]; [exact G1|apply H; assumption|exact N1|]. exists v. intros _. exact V. }
    destruct (map_outcome (fun i => do e <- elem (map draws (seq 0 simpleSize)) i; SimpleExp gG e gN) (seq 0 (simpleSize - 0))) as [l| |] eqn:ML.
    + exists l. unfold loop. rewrite ML. cbn [bind]. split; [reflexivity|]. apply map_outcome_length in ML. rewrite ML. now rewrite seq_length.
    + exfalso. apply map_outcome_panic in ML; [|apply body_fuel]. apply Exists_exists in ML as (i & Hi & E). apply in_seq in Hi. rewrite elem_draws in E by lia. cbn [deref bind draws] in E. destruct (X i) as [v V]. unfold simpleSize in Hi. rewrite V in E by lia. discriminate E.
    + exfalso. revert ML. apply map_outcome_fuel. apply body_fuel.
  - intros i Hi Z. unfold BenchmarkSimpleExp. rewrite RS by (unfold simpleSize; lia). cbn [timed]. unfold loop.
    rewrite (map_outcome_some_panic _ _ _ _ i); [reflexivity|apply body_fuel|apply in_seq; unfold simpleSize; lia|]. rewrite elem_draws by exact Hi. cbn [deref bind draws]. rewrite Z.
    apply (proj1 (C21_SimpleExp_partial gG 0 gN)). lia.
  - unfold BenchmarkGCB. rewrite RS by lia. cbn [timed]. rewrite map_map. cbn [option_map draws].
    assert (EB : exists k, bigSize = S k) by (exists (bigSize - 1)%nat; lia). destruct EB as [k EB]. rewrite EB. cbn [seq map].
    assert (CH : forall js w, exists l, gcb_chain w (map (fun x => Some (big_bits (d x))) js) = Ret l /\ length l = length js).
    { induction js as [|j js IH]; intros w; [exists []; now split|]. cbn [map gcb_chain deref bind]. destruct (gcb_loop w (big_bits (d j))) as [[c x] w']. destruct (IH w') as (l & E & Ll). exists (words_val c :: l). rewrite E. cbn [bind length]. split; [reflexivity|congruence]. }
    destruct (CH (seq 1 k) (big_bits (d 0%nat))) as (l & E & Ll). exists l. rewrite E. cbn [bind]. split; [reflexivity|]. rewrite Ll, seq_length. lia.
Qed.

(** a primality test that accepts everything: the representatives of the thousand elements are there *)
Example C117_calls_nonvacuous : forall bN, exists p rep,
  HashToPrime (fun s => s) (fun _ => true) 1 testString = Ret p /\ bench_reps (fun s => s) (fun _ => true) (fun _ => 0) 1 = Ret rep /\ BenchmarkHashToPrime (fun s => s) (fun _ => true) 1 bN = Ret (repeat p bN).
Proof.
  intros bN. assert (HP : forall s, HashToPrime (fun s => s) (fun _ => true) 1 s = Ret (set_bytes s)) by reflexivity.
  exists (set_bytes testString). assert (R : exists rep, bench_reps (fun s => s) (fun _ => true) (fun _ => 0) 1 = Ret rep).
  { unfold bench_reps, GenBenchSet. destruct (Z.ltb_spec 1000 0) as [H|H]; [lia|]. cbn [bind]. set (l := map _ _). clearbody l. exists (map set_bytes l). apply map_outcome_all. intros a _. apply HP. }
  destruct R as [rep R]. exists rep. split; [apply HP|]. split; [exact R|]. clear R rep.
  refine (proj1 (proj1 (C117_calls_partial (fun s => s) (fun _ => true) (fun _ => 0) 1 (fun _ => 0) bN _ _) _ (HP testString))); intros; lia.
Qed.

(** * What a benchmark should do, and which ones do not *)
Definition counts {A} (bench : nat -> outcome (option (list A))) : Prop :=
  forall bN, exists l, bench bN = Ret (Some l) /\ length l = bN.
Theorem C117_calls_refuted : exists draws, (forall i, exists v, draws i = Some v /\ 1 <= v) /\
  counts (BenchmarkGroupElementMul draws) /\ counts (BenchmarkGroupElementSquare draws) /\
  ~ counts (BenchmarkExp draws) /\ ~ counts (BenchmarkDoubleExp draws) /\ ~ counts (BenchmarkFourfoldExp draws) /\
  ~ counts (BenchmarkSimpleExp draws) /\ ~ counts (BenchmarkGCB draws).
Proof.
  set (d := fun i : nat => 1). exists (fun i => Some (d i)). split; [intros i; exists 1; split; [reflexivity|lia]|].
  assert (P : forall bN, _) by (intros bN; refine (C117_calls_partial (fun s => s) (fun _ => true) (fun _ => 0) 0 d bN _ _); [intros; lia|intros i; unfold d; lia]).
  cbv zeta in P. pose proof big_size as BIG.
  split; [intros bN; destruct (P bN) as (_ & _ & _ & Q & _); eexists; split; [exact Q|apply repeat_length]|].
  split; [intros bN; destruct (P bN) as (_ & _ & _ & _ & Q & _); eexists; split; [exact Q|apply repeat_length]|].
  split. { intros C. assert (X : exists n, (bigSize < n)%nat) by (exists (S bigSize); constructor). destruct X as [n X]. destruct (C n) as (l & E & _). destruct (P n) as (_ & _ & _ & _ & _ & Q & _). rewrite E in Q. clear - X Q. destruct (Nat.leb_spec n bigSize); [lia|discriminate Q]. }
  split. { intros C. assert (X : exists n, n = 1%nat) by (now exists 1%nat). destruct X as [n X]. destruct (C n) as (l & E & L). destruct (P n) as (_ & _ & _ & _ & _ & _ & Q & _). rewrite E in Q. clear - X Q L. destruct (n <=? bigSize)%nat; [|discriminate Q]. injection Q as ->. rewrite map_length, seq_length in L. lia. }
  split. { intros C. destruct (C 4%nat) as (l & E & L). destruct (P 4%nat) as (_ & _ & _ & _ & _ & _ & _ & Q & _). rewrite E in Q. cbn [Nat.sub repeat] in Q. injection Q as ->. discriminate L. }
  split. { intros C. destruct (C 1%nat) as (l & E & L). destruct (P 1%nat) as (_ & _ & _ & _ & _ & _ & _ & _ & Q & _). destruct Q as (l' & E' & L'); [intros i _; clear; unfold d; lia|]. rewrite E in E'. injection E' as ->. clear - L L'. lia. }
  intros C. destruct (C 1%nat) as (l & E & L). destruct (P 1%nat) as (_ & _ & _ & _ & _ & _ & _ & _ & _ & _ & l' & E' & L'). rewrite E in E'. injection E' as ->. clear - L L'. lia.
Qed.

(** * The testing package and a benchmark that does not count
    [duration n] is the time of a run with b.N = n. A run whose time does not grow with b.N and stays below the wanted
    time is repeated until b.N is at its largest value; the reported time per operation is then the time of one run
    divided by that value, whatever the number of calls made. *)
Theorem C117_driver : forall cap next duration wanted, (0 < cap)%nat ->
  (forall n, (1 <= n < cap)%nat -> (n < next n <= cap)%nat) ->
  (* every benchmark: the run ends, with the wanted time or the largest b.N *)
  (exists n, final_bN cap next duration wanted cap 1 = Ret n /\ (1 <= n <= cap)%nat /\ (n = cap \/ wanted <= duration n)) /\
  (* b.N calls of one unit of time or more each: never past the first value that gives the wanted time *)
  (forall cost, (forall n, duration n = Z.of_nat n * cost) -> 0 < cost ->
     exists n, final_bN cap next duration wanted cap 1 = Ret n /\ (n = cap \/ wanted <= Z.of_nat n * cost) /\ duration n / Z.of_nat n = cost) /\
  (* the same calls whatever b.N *)
  (forall T, (forall n, duration n = T) -> T < wanted ->
     final_bN cap next duration wanted cap 1 = Ret cap /\ duration cap / Z.of_nat cap = T / Z.of_nat cap).
Proof.
  intros cap next duration wanted Hc Hn.
  assert (A : forall f n, (1 <= n <= cap)%nat -> (cap - n < f)%nat -> exists m, final_bN cap next duration wanted f n = Ret m /\ (1 <= m <= cap)%nat /\ (m = cap \/ wanted <= duration m)).
  { induction f as [|f IH]; intros n H F; [lia|]. cbn [final_bN]. destruct (Z.ltb_spec (duration n) wanted); cbn [andb].
    - destruct (Nat.ltb_spec n cap).
      + destruct (Hn n); [lia|]. apply IH; lia.
      + exists n. repeat split; try lia.
    - exists n. repeat split; try lia. }
  assert (B := A cap 1%nat ltac:(lia) ltac:(lia)). split; [exact B|]. destruct B as (n & E & R & D). split.
  - intros cost Hd Hcost. exists n. split; [exact E|]. rewrite <- Hd. split; [exact D|]. rewrite Hd, Z.mul_comm. apply Z.div_mul. lia.
  - intros T HT LT. rewrite E. split; [|now rewrite HT]. destruct D as [->|D]; [reflexivity|]. rewrite HT in D. lia.
Qed.
(** a largest value of 1000, reached in two steps *)
Example C117_driver_nonvacuous : forall T wanted, T < wanted ->
  final_bN 1000 (fun n => Nat.min 1000 (100 * n)) (fun _ => T) wanted 1000 1 = Ret 1000%nat.
Proof. intros T wanted H. refine (proj1 (proj2 (proj2 (C117_driver 1000 (fun n => Nat.min 1000 (100 * n)) (fun _ => T) wanted _ _)) T _ H)); [lia|intros n Hn; clear - Hn; lia|reflexivity]. Qed.

(** * A random source that fails *)
Theorem C117_fatal_partial : forall draws bN,
  (draws (bigSize - 1)%nat = None ->
     BenchmarkGroupElementMul draws bN = Ret None /\ BenchmarkGroupElementSquare draws bN = Ret None /\ BenchmarkExp draws bN = Ret None /\
     BenchmarkDoubleExp draws bN = Ret None /\ BenchmarkFourfoldExp draws bN = Ret None /\ BenchmarkGCB draws bN = Ret None) /\
  (draws 99%nat = None -> BenchmarkSimpleExp draws bN = Ret None) /\
  (forall i, (i < bN)%nat -> (i < bigSize)%nat -> draws i = None -> draws (bigSize - 1)%nat <> None -> BenchmarkExp draws bN = Panic) /\
  (forall i, (i < 99)%nat -> draws i = None -> draws 99%nat <> None -> BenchmarkSimpleExp draws bN = Panic).
Proof.
  intros draws bN. pose proof big_size as BIG. split; [|split; [|split]].
  - intros H. assert (R : random_set bigSize draws = None) by (rewrite random_set_last by lia; now rewrite H).
    unfold BenchmarkGroupElementMul, BenchmarkGroupElementSquare, BenchmarkExp, BenchmarkDoubleExp, BenchmarkFourfoldExp, BenchmarkGCB. rewrite R. cbn [timed]. repeat split; reflexivity.
  - intros H. unfold BenchmarkSimpleExp. assert (R : random_set simpleSize draws = None) by (unfold simpleSize; rewrite random_set_last by lia; cbn [Nat.sub]; now rewrite H). now rewrite R.
  - intros i H1 H2 N L. unfold BenchmarkExp. assert (R : random_set bigSize draws = Some (map draws (seq 0 bigSize))) by (rewrite random_set_last by lia; destruct (draws (bigSize - 1)%nat); congruence).
    rewrite R. cbn [timed]. unfold loop. rewrite (map_outcome_some_panic _ _ _ _ i); [reflexivity| |apply in_seq; lia|].
    + intros a. pose proof (elem_fuel (map draws (seq 0 bigSize)) a). destruct (elem _ a); cbn [bind]; congruence.
    + rewrite elem_draws by exact H2. rewrite N. reflexivity.
  - intros i H1 N L. unfold BenchmarkSimpleExp. assert (R : random_set simpleSize draws = Some (map draws (seq 0 simpleSize))) by (unfold simpleSize; rewrite random_set_last by lia; cbn [Nat.sub]; destruct (draws 99%nat); congruence).
    rewrite R. cbn [timed]. unfold loop. rewrite (map_outcome_some_panic _ _ _ _ i); [reflexivity|apply body_fuel|apply in_seq; unfold simpleSize; lia|].
    rewrite elem_draws by (unfold simpleSize; lia). rewrite N. reflexivity.
Qed.
(** one failing call of crand.Int is enough for a crash in place of b.Fatal *)
Theorem C117_fatal_refuted : exists draws, (forall i, draws i = None <-> i = 0%nat) /\
  BenchmarkExp draws 1 = Panic /\ BenchmarkSimpleExp draws 1 = Panic /\ BenchmarkGroupElementMul draws 1 = Panic /\ BenchmarkGCB draws 1 = Panic.
Proof.
  set (draws := fun i => match i with O => None | S _ => Some 1 end). exists draws. pose proof big_size as BIG.
  split; [intros [|i]; cbn [draws]; split; congruence|].
  assert (L : draws (bigSize - 1)%nat <> None) by (destruct (bigSize - 1)%nat eqn:E; [lia|discriminate]).
  destruct (C117_fatal_partial draws 1) as (_ & _ & P & Q).
  split; [now apply (P 0%nat); try lia|]. split; [now apply (Q 0%nat); try lia|].
  assert (R : random_set bigSize draws = Some (map draws (seq 0 bigSize))) by (rewrite random_set_last by lia; destruct (draws (bigSize - 1)%nat); congruence).
  split.
  - unfold BenchmarkGroupElementMul. rewrite R. cbn [timed]. set (set := map draws (seq 0 bigSize)) in *.
    assert (G : groupElementMul gN set = Panic).
    { unfold groupElementMul, loop. rewrite (map_outcome_some_panic _ _ _ _ 1%nat); [reflexivity| |apply in_seq; subst set; rewrite map_length, seq_length; lia|].
      - intros a. pose proof (elem_fuel set a). pose proof (elem_fuel set (a - 1)%nat). destruct (elem set a) as [x| |]; cbn [bind]; [|congruence..]. destruct (elem set (a - 1)) as [y| |]; cbn [bind]; [|congruence..]. unfold go_mod. destruct (_ =? 0); discriminate.
      - subst set. rewrite !elem_draws by lia. reflexivity. }
    unfold loop. rewrite (map_outcome_some_panic _ _ _ _ 0%nat); [reflexivity|intros _; rewrite G; discriminate|apply in_seq; lia|exact G].
  - unfold BenchmarkGCB. rewrite R. cbn [timed]. assert (EB : exists k, bigSize = S k) by (exists (bigSize - 1)%nat; lia). destruct EB as [k EB]. rewrite EB. reflexivity.
Qed.

Print Assumptions C117_calls_partial.
Print Assumptions C117_calls_refuted.
Print Assumptions C117_driver.
Print Assumptions C117_fatal_partial.
Print Assumptions C117_fatal_refuted.
