(** Theorems for properties C40-C42 (sorted tuples and the three-square search). GCD is the Gaussian
    gcd of the external package, of which only [gcd_spec] is assumed (a common divisor that is a
    combination of its arguments); is_prime is arbitrary. *)
From Coq Require Import ZArith Bool Lia List Permutation Sorted.
From Verif Require Import GoBig GoBigFacts Sched ListUpd Spec SquaresModel SquaresProofs.
Import ListNotations.
Open Scope Z_scope.

(** ** C40 *)
Theorem C40_NewInt3 : forall w1 w2 w3, let '(a, b, c) := NewInt3 w1 w2 w3 in
  Permutation [Z.abs w1; Z.abs w2; Z.abs w3] [a; b; c] /\ Sorted Z.ge [a; b; c] /\
  a ^ 2 + b ^ 2 + c ^ 2 = w1 ^ 2 + w2 ^ 2 + w3 ^ 2.
Proof.
  intros w1 w2 w3. pose proof (NewInt3_sorted w1 w2 w3) as S. pose proof (NewInt3_perm w1 w2 w3) as P.
  destruct (NewInt3 w1 w2 w3) as [[a b] c]. split; [exact P|]. split.
  - repeat constructor; lia.
  - apply sum_sq_perm in P. cbn [sum_sq fold_right] in P. rewrite !Z.abs_square in P. rewrite !Z.pow_2_r. lia.
Qed.
Theorem C40_NewInt4 : forall w1 w2 w3 w4, let '(a, b, c, d) := NewInt4 w1 w2 w3 w4 in
  Permutation [Z.abs w1; Z.abs w2; Z.abs w3; Z.abs w4] [a; b; c; d] /\ Sorted Z.ge [a; b; c; d] /\
  a ^ 2 + b ^ 2 + c ^ 2 + d ^ 2 = w1 ^ 2 + w2 ^ 2 + w3 ^ 2 + w4 ^ 2.
Proof.
  intros w1 w2 w3 w4. pose proof (NewInt4_sorted w1 w2 w3 w4) as S. pose proof (NewInt4_perm w1 w2 w3 w4) as P.
  destruct (NewInt4 w1 w2 w3 w4) as [[[a b] c] d]. split; [exact P|]. split.
  - repeat constructor; lia.
  - apply sum_sq_perm in P. cbn [sum_sq fold_right] in P. rewrite !Z.abs_square in P. rewrite !Z.pow_2_r. lia.
Qed.
Example C40_case : NewInt3 (-3) 1 (-7) = (7, 3, 1) /\ NewInt4 1 (-2) 3 (-4) = (4, 3, 2, 1) /\ NewInt4 0 5 (-5) 2 = (5, 5, 2, 0).
Proof. repeat split. Qed.

(** ** C41. [run_of n R] is a call ThreeSquares(n) on a machine with R CPUs: [can_return] ranges over
    all interleavings and all random draws. *)
Definition three_squares_of (n : Z) (v : Z * Z * Z) : Prop :=
  let '(a, b, c) := v in a ^ 2 + b ^ 2 + c ^ 2 = n /\ a >= b /\ b >= c /\ c >= 0.

Theorem C41_ThreeSquares_correct : forall GCD is_prime, gcd_spec GCD ->
  forall n R s0, n mod 4 = 1 -> ts_init n R = Ret s0 ->
  forall v, can_return (ts_step GCD is_prime) ts_ret s0 v -> three_squares_of n v /\ Verify n v = true.
Proof.
  intros GCD is_prime HG n R s0 H4 H0 v Hv. unfold ts_init in H0. destruct (n <? 0); [discriminate|].
  injection H0 as <-. apply (ts_can_return_iff GCD is_prime n R v) in Hv.
  apply (finds_correct GCD is_prime HG n R v H4) in Hv. destruct v as [[a b] c]. cbn [three_squares_of Verify].
  rewrite !Z.pow_2_r. split; [lia|]. apply Z.eqb_eq. lia.
Qed.
(** runs with four CPUs: candidate 37 = 101 - 8^2, and the composite candidate 85 = 101 - 4^2 *)
Example C41_case : gcd_spec gauss_gcd /\ 101 mod 4 = 1 /\ ts_init 101 4 = Ret (ts_start 101 4) /\
  can_return (ts_step gauss_gcd (fun _ => true)) ts_ret (ts_start 101 4) (8, 6, 1) /\
  can_return (ts_step gauss_gcd (fun _ => true)) ts_ret (ts_start 101 4) (9, 4, 2).
Proof.
  split; [exact gauss_gcd_spec|]. split; [reflexivity|]. split; [reflexivity|].
  split; apply ts_can_return_iff.
  - exists 1%nat, 0%nat, (fun _ => 1), (-6), 1. split; [lia|]. split; [intros i Hi; lia|]. cbv zeta.
    split; [vm_compute; split; discriminate|]. repeat split; vm_compute; reflexivity.
  - exists 3%nat, 0%nat, (fun _ => 19), 9, (-2). split; [lia|]. split; [intros i Hi; lia|]. cbv zeta.
    split; [vm_compute; split; discriminate|]. repeat split; vm_compute; reflexivity.
Qed.

(** ** C42. Refuted in several ways, for every gcd and primality test.
    n = 25: on every machine and under every schedule and all random draws, no value is returned *)
Theorem C42_hangs_25 : forall GCD is_prime R v, 25 mod 4 = 1 /\
  ~ can_return (ts_step GCD is_prime) ts_ret (ts_start 25 R) v.
Proof.
  intros GCD is_prime R v. split; [reflexivity|]. intros H. apply ts_can_return_iff in H.
  destruct H as (k & j & draws & Re & Imm & Hk & Hr & Hok & Hs & Ef & _).
  set (cnt := Z.of_nat k + Z.of_nat j * Z.of_nat R) in *. assert (Hc : 0 <= cnt) by (unfold cnt; lia). clearbody cnt.
  destruct Hok as [Hx _]. change (Z.shiftr (Z.sqrt 25) 1) with 2 in Hx.
  assert (D : cnt = 0 \/ cnt = 1 \/ cnt = 2) by lia.
  destruct D as [->|[->| ->]]; rewrite hopeless_find in Ef; try discriminate; vm_compute; congruence.
Qed.
(** n = 1: same *)
Theorem C42_hangs_1 : forall GCD is_prime R v, 1 mod 4 = 1 /\
  ~ can_return (ts_step GCD is_prime) ts_ret (ts_start 1 R) v.
Proof.
  intros GCD is_prime R v. split; [reflexivity|]. intros H. apply ts_can_return_iff in H.
  destruct H as (k & j & draws & Re & Imm & Hk & Hr & Hok & Hs & Ef & _).
  set (cnt := Z.of_nat k + Z.of_nat j * Z.of_nat R) in *. assert (Hc : 0 <= cnt) by (unfold cnt; lia). clearbody cnt.
  destruct Hok as [Hx Hp]. change (Z.shiftr (Z.sqrt 1) 1) with 0 in Hx.
  assert (cnt = 0) by lia. subst cnt. vm_compute in Hp. congruence.
Qed.
(** on a machine with one CPU every n = (2m)^2 + 1 hangs: the first candidate leaves 1, which makes
    the only goroutine give up *)
Theorem C42_one_cpu : forall GCD is_prime m v, 0 < m -> let n := (2 * m) ^ 2 + 1 in
  n mod 4 = 1 /\ ~ can_return (ts_step GCD is_prime) ts_ret (ts_start n 1) v.
Proof.
  intros GCD is_prime m v Hm n. split.
  { unfold n. replace ((2 * m) ^ 2 + 1) with (1 + m * m * 4) by ring. now rewrite Z_mod_plus_full. }
  intros H. apply ts_can_return_iff in H.
  destruct H as (k & j & draws & Re & Imm & Hk & Hr & Hok & _).
  assert (k = 0%nat) by lia. subst k.
  assert (Hc : cand_ok n 0). { destruct j as [|j]; [exact Hok|]. destruct (Hr 0%nat ltac:(lia)) as [H0 _]. exact H0. }
  destruct Hc as [_ Hp]. unfold cand_p, cand_x in Hp. rewrite Z.sub_0_r in Hp.
  assert (Es : Z.sqrt n = 2 * m). { apply Z.sqrt_unique. unfold n. rewrite Z.pow_2_r. nia. }
  rewrite Es in Hp. rewrite (Z.shiftr_div_pow2 (2 * m)), Z.shiftl_mul_pow2 in Hp by lia. change (2 ^ 1) with 2 in Hp.
  rewrite (Z.mul_comm 2 m), Z.div_mul in Hp by lia. unfold n in Hp. rewrite Z.pow_2_r in Hp. lia.
Qed.
(** and when it can return it can also block for ever: the value found is dropped if the main
    goroutine has not yet reached its receive (one CPU, every n) *)
Theorem C42_lost_result : forall GCD is_prime n v,
  can_return (ts_step GCD is_prime) ts_ret (ts_start n 1) v ->
  can_deadlock (ts_step GCD is_prime) ts_ret ts_idle (ts_start n 1).
Proof.
  intros GCD is_prime n v H. apply ts_can_return_iff in H.
  destruct H as (k & j & draws & Re & Imm & Hk & Hr & Hok & Hs & Ef & Ev & ->).
  exists (repeat QMain 1 ++ found_sched k j draws ++ [QR k draws; QMain]). eexists.
  rewrite (run_app _ _ _ _ _ _ _ (spawn_run GCD is_prime n 1 1 (le_n _))).
  rewrite (run_app _ _ _ _ _ _ _ (find_run GCD is_prime n 1 k j draws Re Imm _ (MSpawn 1) ltac:(discriminate)
             (nth_seq_routines 1 k Hk) Hr Hok Hs Ef Ev)).
  assert (k = 0%nat) by lia. subst k. split; [reflexivity|]. split; [reflexivity|].
  intros [|[|k] d] st' Hst; cbn in Hst; try discriminate. destruct k; discriminate.
Qed.
(** the same with eight CPUs: only the second goroutine finds 5 = 2^2 + 1^2 + 0^2 *)
Theorem C42_lost_result_8 :
  can_return (ts_step gauss_gcd (fun _ => true)) ts_ret (ts_start 5 8) (2, 1, 0) /\
  can_deadlock (ts_step gauss_gcd (fun _ => true)) ts_ret ts_idle (ts_start 5 8).
Proof.
  split.
  - apply ts_can_return_iff. exists 1%nat, 0%nat, (fun _ => 1), 2, 1. split; [lia|]. split; [intros i Hi; lia|]. cbv zeta.
    split; [vm_compute; split; discriminate|]. repeat split; vm_compute; reflexivity.
  - exists (repeat QMain 8 ++ [QR 0 (fun _ => 0); QR 1 (fun _ => 0); QR 1 (fun _ => 1); QR 1 (fun _ => 0)] ++
            map (fun k => QR k (fun _ => 0)) [2; 3; 4; 5; 6; 7]%nat ++ [QMain]). eexists.
    split; [vm_compute; reflexivity|]. split; [reflexivity|].
    intros [|k d] st' Hst; [discriminate|]. exfalso. cbn [ts_step] in Hst.
    do 8 (destruct k as [|k]; [discriminate|]). destruct k; discriminate.
Qed.

Theorem C42_ThreeSquares_returns_refuted : exists n v, n mod 4 = 1 /\ three_squares_of n v /\
  forall GCD is_prime R w, ~ can_return (ts_step GCD is_prime) ts_ret (ts_start n R) w.
Proof.
  exists 25, (5, 0, 0). split; [reflexivity|]. split; [cbn; lia|]. intros GCD is_prime R w. apply (C42_hangs_25 GCD is_prime R w).
Qed.
Theorem C42_result_lost_refuted : exists GCD is_prime n R v, gcd_spec GCD /\ n mod 4 = 1 /\ three_squares_of n v /\
  can_return (ts_step GCD is_prime) ts_ret (ts_start n R) v /\ can_deadlock (ts_step GCD is_prime) ts_ret ts_idle (ts_start n R).
Proof.
  exists gauss_gcd, (fun _ => true), 5, 8%nat, (2, 1, 0). split; [exact gauss_gcd_spec|]. split; [reflexivity|]. split; [cbn; lia|].
  exact C42_lost_result_8.
Qed.
(** Outside n mod 4 = 1: a candidate 2 is always lost, because the associates of 1 + i are not taken for
    a valid gcd (three_square.go:126-128). So 6 = 4 + 1 + 1 is never returned, with any correct gcd. *)
Theorem C42_candidate_2 : forall GCD is_prime, gcd_spec GCD -> forall R v,
  three_squares_of 6 (2, 1, 1) /\ ~ can_return (ts_step GCD is_prime) ts_ret (ts_start 6 R) v.
Proof.
  intros GCD is_prime HG R v. split; [cbn; lia|]. intros H. apply ts_can_return_iff in H.
  destruct H as (k & j & draws & Re & Imm & Hk & Hr & Hok & Hs & Ef & Ev & _).
  set (cnt := Z.of_nat k + Z.of_nat j * Z.of_nat R) in *. assert (Hc : 0 <= cnt) by (unfold cnt; lia). clearbody cnt.
  destruct Hok as [Hx _]. change (Z.shiftr (Z.sqrt 6) 1) with 1 in Hx.
  assert (D : cnt = 0 \/ cnt = 1) by lia.
  destruct D as [->| ->].
  - change (cand_p 6 0) with 2 in Ef. unfold findTwoSquares in Ef. cbn [find_loop maxUFindingIter] in Ef.
    change (Z.shiftr 2 1) with 1 in Ef. rewrite Z.mod_1_r in Ef. change (Z.shiftl 0 1) with 0 in Ef.
    change (exp_recv 0 0 (Z.shiftr (2 - 1) 1) 2 =? 2 - 1) with true in Ef. cbv iota in Ef.
    change (exp_recv 0 0 (Z.shiftr (Z.shiftr (2 - 1) 1) 1) 2) with 1 in Ef. unfold gaussianIntGCD in Ef. injection Ef as Ef.
    pose proof (gcd_norm GCD HG 1 2 ltac:(lia) (Z.divide_refl 2)) as N. rewrite Ef in N. unfold gnorm in N. cbn [fst snd] in N.
    assert (A : Z.abs Re = 1 /\ Z.abs Imm = 1).
    { clear -N. assert (-1 <= Re <= 1) by nia. assert (-1 <= Imm <= 1) by nia.
      assert (R : Re = -1 \/ Re = 0 \/ Re = 1) by lia. assert (I : Imm = -1 \/ Imm = 0 \/ Imm = 1) by lia.
      destruct R as [->|[->| ->]]; destruct I as [->|[->| ->]]; lia. }
    destruct A as [A1 A2].
    unfold isValidGaussianIntGCD in Ev. rewrite A1, A2 in Ev. discriminate.
  - rewrite hopeless_find in Ef; [discriminate|vm_compute; congruence..].
Qed.

(** What holds: no crash for n >= 0 (and Sqrt panics for n < 0); the returned values are exactly the
    ones some goroutine reaches, passing over large candidates that fail the primality test, and
    finds a valid decomposition for; once the main goroutine waits, an offered value is delivered. *)
Theorem C42_ThreeSquares_returns_partial : forall GCD is_prime n R,
  (n < 0 -> ts_init n R = Panic) /\
  (0 <= n -> ts_init n R = Ret (ts_start n R) /\ ~ can_crash (ts_step GCD is_prime) (ts_start n R) /\
    (forall v, can_return (ts_step GCD is_prime) ts_ret (ts_start n R) v <->
       exists k j draws Re Im, (k < R)%nat /\
         let rt := Z.sqrt n / 2 in let x i := 2 * (rt - (Z.of_nat k + Z.of_nat i * Z.of_nat R)) in let p i := n - x i ^ 2 in
         (forall i, (i < j)%nat -> 0 <= x i /\ 2 <= p i /\ 13 < bit_len (p i) /\ is_prime (p i) = false) /\
         0 <= x j /\ 2 <= p j /\ (bit_len (p j) <= 13 \/ is_prime (p j) = true) /\
         findTwoSquares GCD (p j) draws = Some (Re, Im) /\ isValidGaussianIntGCD (Some (Re, Im)) = true /\
         v = NewInt3 (x j) Re Im)) /\
  (forall s k v d, q_main s = MWait -> nth_error (q_rout s) k = Some (ROffer v) ->
     exists s1 s2, run (ts_step GCD is_prime) (Ret s) [QR k d; QMain] = Some (Ret s2) /\ ts_ret s2 = Some v /\
       run (ts_step GCD is_prime) (Ret s) [QR k d] = Some (Ret s1) /\ q_main s1 = MGot v).
Proof.
  intros GCD is_prime n R. split; [|split].
  - intros Hn. unfold ts_init. now rewrite (proj2 (Z.ltb_lt n 0)).
  - intros Hn. split; [unfold ts_init; now rewrite (proj2 (Z.ltb_ge n 0))|]. split; [apply ts_no_crash|].
    intros v. rewrite ts_can_return_iff. unfold finds.
    assert (EX : forall c, cand_x n c = 2 * (Z.sqrt n / 2 - c)).
    { intros c. unfold cand_x. rewrite Z.shiftl_mul_pow2, Z.shiftr_div_pow2 by lia. change (2 ^ 1) with 2. ring. }
    assert (EP : forall c, cand_p n c = n - (2 * (Z.sqrt n / 2 - c)) ^ 2).
    { intros c. unfold cand_p. rewrite EX, Z.pow_2_r. reflexivity. }
    assert (EO : forall c, cand_ok n c <-> 0 <= 2 * (Z.sqrt n / 2 - c) /\ 2 <= n - (2 * (Z.sqrt n / 2 - c)) ^ 2).
    { intros c. unfold cand_ok. rewrite EP, Z.shiftr_div_pow2 by lia. change (2 ^ 1) with 2. lia. }
    assert (ES : forall c, cand_skip is_prime n c = true <->
        13 < bit_len (n - (2 * (Z.sqrt n / 2 - c)) ^ 2) /\ is_prime (n - (2 * (Z.sqrt n / 2 - c)) ^ 2) = false).
    { intros c. unfold cand_skip. rewrite EP, andb_true_iff, Z.ltb_lt, negb_true_iff. reflexivity. }
    split; intros (k & j & draws & Re & Im & Hk & Hrest); exists k, j, draws, Re, Im; (split; [exact Hk|]); cbv zeta in *.
    + destruct Hrest as (Hr & Hok & Hs & Ef & Ev & Hv). rewrite EX in Hv. rewrite EP in Ef.
      apply EO in Hok. destruct Hok as [Hx Hp]. split; [|split; [exact Hx|split; [exact Hp|split; [|auto]]]].
      * intros i Hi. destruct (Hr i Hi) as [Ho Hsk]. apply EO in Ho. apply ES in Hsk. tauto.
      * unfold cand_skip in Hs. rewrite EP in Hs. apply andb_false_iff in Hs.
        destruct Hs as [Hs|Hs]; [left; now apply Z.ltb_ge in Hs|right; now apply negb_false_iff in Hs].
    + destruct Hrest as (Hr & Hx & Hp & Hs & Ef & Ev & Hv). rewrite EX, EP. split; [|split; [apply EO; auto|split; [|auto]]].
      * intros i Hi. destruct (Hr i Hi) as (H1 & H2 & H3 & H4). split; [apply EO; auto|apply ES; auto].
      * unfold cand_skip. rewrite EP. apply andb_false_iff.
        destruct Hs as [Hs|Hs]; [left; apply Z.ltb_ge; exact Hs|right; now rewrite Hs].
  - intros s k v d Hm Hk. eexists _, _. split; [|split; [|split]].
    + cbn [run ts_step]. rewrite Hk, Hm. cbn [q_main q_set_main]. reflexivity.
    + reflexivity.
    + cbn [run ts_step]. rewrite Hk, Hm. reflexivity.
    + reflexivity.
Qed.
(** C41_case has concrete returning runs; here a skipped composite: 16385 - 128^2 = 1 ends goroutine 0,
    16385 - 126^2 = 509 is prime *)
Example C42_partial_case : ts_init (-3) 4 = Panic /\
  exists v, can_return (ts_step gauss_gcd (fun p => p =? 509)) ts_ret (ts_start 16385 2) v.
Proof.
  split; [reflexivity|]. eexists. apply ts_can_return_iff. exists 1%nat, 0%nat, (fun i => Z.of_nat i). eexists _, _.
  split; [lia|]. split; [intros i Hi; lia|]. cbv zeta. split; [vm_compute; split; discriminate|].
  split; [vm_compute; reflexivity|]. split; [vm_compute; reflexivity|]. split; [vm_compute; reflexivity|]. reflexivity.
Qed.

Print Assumptions C40_NewInt3.
Print Assumptions C40_NewInt4.
Print Assumptions C41_ThreeSquares_correct.
Print Assumptions C42_hangs_25.
Print Assumptions C42_hangs_1.
Print Assumptions C42_one_cpu.
Print Assumptions C42_lost_result.
Print Assumptions C42_lost_result_8.
Print Assumptions C42_ThreeSquares_returns_partial.
Print Assumptions C42_ThreeSquares_returns_refuted.
Print Assumptions C42_result_lost_refuted.
Print Assumptions C42_candidate_2.
