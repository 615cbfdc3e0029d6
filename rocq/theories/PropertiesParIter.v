(** Theorems for properties C11-C13 (ProveMembershipIterParallel, worker count, the four
    accumulate-and-prove entry points). *)
From Coq Require Import ZArith Bool Lia String List Arith.
From Verif Require Import GoBig GoBigFacts Spec AccModel AccFacts AccProofs ForkJoin ParModel ParProofs IterModel
  IterProofs HashModel HashProofs Sched ParIterModel ParIterProofs AccParModel PropertiesHash.
Import ListNotations.
Open Scope Z_scope.

(** ** C12 *)
Theorem C12_worker_count : forall cpus : nat, (1 <= cpus)%nat ->
  exists k, calNumWorkers cpus = Ret ((2 ^ k)%nat, k) /\ (2 ^ k <= cpus)%nat /\ forall j, (2 ^ j <= cpus)%nat -> (j <= k)%nat.
Proof.
  intros cpus H. destruct (calNumWorkers_spec cpus H) as (k & E & H1 & H2). exists k. split; [exact E|]. split; [exact H1|].
  intros j Hj. destruct (Nat.le_gt_cases j k) as [L|L]; [exact L|]. exfalso.
  assert (2 ^ (k + 1) <= 2 ^ j)%nat by (apply Nat.pow_le_mono_r; lia). lia.
Qed.
Example C12_case : calNumWorkers 1 = Ret (1%nat, 0%nat) /\ calNumWorkers 12 = Ret (8%nat, 3%nat) /\ calNumWorkers 16 = Ret (16%nat, 4%nat).
Proof. repeat split. Qed.

(** ** C11 *)
Lemma IterParallel_wit : forall cpus base N set, (1 <= cpus)%nat -> 0 < N -> 0 <= base < N -> Forall (fun x => 0 <= x) set ->
  exists c, ProveMembershipIterParallel cpus base N set = Ret c /\
    call_ends c (fun v => v = map Some (wit base N 1 set)).
Proof.
  intros cpus base N set Hc HN Hb Hs. unfold ProveMembershipIterParallel.
  destruct (calNumWorkers_spec cpus Hc) as (k & -> & _). cbn [bind].
  destruct (Nat.leb_spec (length set) (2 ^ k * 2)) as [L|L]; eexists; (split; [reflexivity|]); cbn [call_ends].
  - destruct set as [|x t]; [exists []; split; reflexivity|]. exists (wit base N 1 (x :: t)). split; [|reflexivity].
    apply ProveMembershipIter_val_spec; [exact HN|exact Hs|discriminate|now right].
  - apply (big_ends base N set HN Hs Hb k). lia.
Qed.
(** the value is the one ProveMembershipIter returns, and the list of the witnesses *)
Theorem C11_iter_parallel : forall cpus base N set, (1 <= cpus)%nat -> 0 < N -> 0 <= base < N -> Forall (fun x => 0 <= x) set ->
  exists c proofs, ProveMembershipIterParallel cpus base N set = Ret c /\
    ProveMembershipIter_val base N set = Ret proofs /\ (set <> [] -> witnesses base N set proofs) /\
    call_ends c (fun v => v = map Some proofs).
Proof.
  intros cpus base N set Hc HN Hb Hs. destruct (IterParallel_wit cpus base N set Hc HN Hb Hs) as (c & E & H).
  exists c, (wit base N 1 set). split; [exact E|]. split; [|split].
  - destruct set as [|x t]; [reflexivity|]. apply ProveMembershipIter_val_spec; [exact HN|exact Hs|discriminate|now right].
  - intros Hne. now apply wit_witnesses.
  - exact H.
Qed.
(** in words of crashes, deadlocks and results, for the goroutines *)
Theorem C11_goroutines : forall cpus base N set s numWorkers pow, (1 <= cpus)%nat -> 0 < N -> 0 <= base < N -> Forall (fun x => 0 <= x) set ->
  ProveMembershipIterParallel cpus base N set = Ret (Goroutines N set numWorkers pow s) ->
  let step := bstep N set numWorkers pow in
  ~ can_crash step s /\ ~ can_deadlock step bret (fun _ => false) s /\
  (exists bound, forall sched st, run step (Ret s) sched = Some st -> (length sched <= bound)%nat) /\
  exists proofs, ProveMembershipIter_val base N set = Ret proofs /\
    can_return step bret s (map Some proofs) /\ forall v, can_return step bret s v -> v = map Some proofs.
Proof.
  intros cpus base N set s numWorkers pow Hc HN Hb Hs E. cbv zeta.
  destruct (C11_iter_parallel cpus base N set Hc HN Hb Hs) as (c & proofs & E' & Hp & _ & HE).
  rewrite E in E'. injection E' as <-. cbn [call_ends] in HE.
  split; [eapply always_ends_no_crash; exact HE|]. split; [eapply always_ends_no_deadlock; exact HE|]. split.
  - destruct HE as [b HE]. exists b. intros sched st Hr. destruct (HE _ _ Hr) as [Hw _]. unfold work in Hw.
    assert (F : forall (l : list bchoice), length (filter (fun _ => negb false) l) = length l).
    { induction l as [|a l IH]; [reflexivity|]. cbn [filter negb length]. f_equal. exact IH. }
    rewrite F in Hw. exact Hw.
  - exists proofs. split; [exact Hp|]. split.
    + destruct (always_ends_returns _ _ _ _ _ HE) as (v & Hv & ->). exact Hv.
    + intros v (sched & s' & Hr & Hv). destruct HE as [b HE]. destruct (HE _ _ Hr) as [_ (s'' & Es & [(v' & Hv' & ->)|(Hn & _)])]; injection Es as <-; congruence.
Qed.
(** two CPUs, five elements: two workers; a complete schedule, one init goroutine and one worker after the other *)
Definition C11_sched : list bchoice :=
  [CInit 0; CInit 0; CInit 1; CInit 2; CInit 4; CInit 3; CInit 3; CInit 4]%nat.
Example C11_case : exists s sched st, ProveMembershipIterParallel 2 3 101 [2; 3; 5; 7; 11] = Ret (Goroutines 101 [2; 3; 5; 7; 11] 2 1 s) /\
  run (bstep 101 [2; 3; 5; 7; 11] 2 1) (Ret s) sched = Some (Ret st) /\
  (b_chan st = [PN 2 5 (3 ^ 6 mod 101); PN 0 2 (3 ^ 385 mod 101)] \/ b_chan st = [PN 0 2 (3 ^ 385 mod 101); PN 2 5 (3 ^ 6 mod 101)]).
Proof.
  eexists. exists C11_sched. eexists. split; [reflexivity|]. split; [vm_compute; reflexivity|]. vm_compute. auto.
Qed.

(** ** C13 *)
Theorem C13_entry_points : forall sha is_prime poseidon cpus fuel set e setup,
  (1 <= cpus)%nat -> (forall l, 0 <= poseidon l) -> 0 < sN setup -> 0 <= sG setup < sN setup ->
  let Gen := GenRepresentatives sha is_prime poseidon fuel set e in
  let Seq := AccAndProve sha is_prime poseidon fuel set e setup in
  let Iter := AccAndProveIter sha is_prime poseidon fuel set e setup in
  let Par := AccAndProveParallel sha is_prime poseidon cpus fuel set e setup in
  let IterPar := AccAndProveIterParallel sha is_prime poseidon cpus fuel set e setup in
  (* the representatives of a non-empty set *)
  (forall rep, Gen = Ret rep -> set <> [] ->
     exists proofs, let acc := sG setup ^ product rep mod sN setup in
       witnesses (sG setup) (sN setup) rep proofs /\
       Seq = Ret (acc, proofs) /\ Iter = Ret (acc, proofs) /\
       (exists t k, Par = Ret (t, k) /\ always_returns (pm_expand (sN setup)) t proofs /\ k proofs = Ret (acc, proofs)) /\
       (exists c k, IterPar = Ret (c, k) /\ call_ends c (fun v => v = map Some proofs) /\ k (map Some proofs) = Ret (acc, map Some proofs))) /\
  (* the empty set *)
  (set = [] -> Seq = Panic /\ Iter = Panic /\
     (exists t k, Par = Ret (t, k) /\ forall sched st, grun (pm_expand (sN setup)) (Ret (GRun t)) sched = Some st -> sched = [] \/ st = Panic) /\
     (exists k, IterPar = Ret (Sequential (Ret []), k) /\ k [] = Panic)) /\
  (* a string without a representative *)
  (Gen = Panic -> Seq = Panic /\ Iter = Panic /\ Par = Panic /\ IterPar = Panic).
Proof.
  intros sha is_prime poseidon cpus fuel set e setup Hc Hp HN HG. cbv zeta. split; [|split].
  - intros rep E Hne. pose proof (GenRep_nonneg _ _ _ _ _ _ _ Hp E) as Hr.
    assert (Hre : rep <> []) by (intros ->; apply GenRep_length in E; destruct set; [congruence|discriminate]).
    exists (wit (sG setup) (sN setup) 1 rep). split; [now apply wit_witnesses|].
    unfold AccAndProve, AccAndProveIter, AccAndProveParallel, AccAndProveIterParallel. rewrite E. cbn [bind].
    rewrite AccAndProve_rep_spec, AccAndProveIter_rep_spec by assumption. split; [reflexivity|]. split; [reflexivity|].
    pose proof (finish_acc_spec (sN setup) (sG setup) rep HN Hr Hre) as F. split.
    + destruct (calNumWorkers_spec cpus Hc) as (k & -> & _). cbn [bind]. eexists. eexists. split; [reflexivity|]. split; [|exact F].
      apply (pm_always_returns (sN setup) (PMParallel (sG setup) rep (Z.of_nat (2 ^ k))) HN).
      split; [exact Hr|]. split; [now right|exact Hre].
    + destruct (IterParallel_wit cpus (sG setup) (sN setup) rep Hc HN HG Hr) as (c & -> & H). cbn [bind].
      eexists. eexists. split; [reflexivity|]. split; [exact H|].
      unfold finish_acc in F. unfold finish_acc_nil, go_index in *.
      destruct (wit (sG setup) (sN setup) 1 rep) as [|p ps] eqn:Ew; [discriminate|]. cbn in F |- *.
      destruct rep as [|r rep']; [congruence|]. cbn in F |- *. injection F as F. rewrite F. reflexivity.
  - intros ->. unfold AccAndProve, AccAndProveIter, AccAndProveParallel, AccAndProveIterParallel.
    assert (E : GenRepresentatives sha is_prime poseidon fuel [] e = Ret []) by (rewrite GenRep_map; reflexivity).
    rewrite E. cbn [bind]. split; [reflexivity|]. split; [reflexivity|].
    destruct (calNumWorkers_spec cpus Hc) as (k & Ek & _). split.
    + rewrite Ek. cbn [bind]. eexists. eexists. split; [reflexivity|]. intros [|p sched] st Hr; [now left|right].
      destruct p as [|j p]; [|discriminate]. cbn [grun gstep pm_expand] in Hr.
      assert (X : forall o, grun (pm_expand (sN setup)) Panic sched = Some o -> o = Panic) by (destruct sched; [intros o [= <-]; reflexivity|discriminate]).
      destruct (Z.of_nat (2 ^ k) <=? 0); cbn in Hr; now apply X.
    + unfold ProveMembershipIterParallel. rewrite Ek. cbn [bind]. cbn [length Nat.leb]. cbn [bind]. eexists. split; reflexivity.
  - intros E. unfold AccAndProve, AccAndProveIter, AccAndProveParallel, AccAndProveIterParallel. rewrite E. repeat split.
Qed.
Example C13_case : AccAndProve toy_sha toy_prime toy_poseidon 50 ["a"; "b"; "c"]%string 1 (MkSetup 101 3 5) =
  AccAndProveIter toy_sha toy_prime toy_poseidon 50 ["a"; "b"; "c"]%string 1 (MkSetup 101 3 5) /\
  exists acc proofs, AccAndProve toy_sha toy_prime toy_poseidon 50 ["a"; "b"; "c"]%string 1 (MkSetup 101 3 5) = Ret (acc, proofs).
Proof. split; [vm_compute; reflexivity|]. eexists. eexists. vm_compute. reflexivity. Qed.

Print Assumptions C12_worker_count.
Print Assumptions C11_iter_parallel.
Print Assumptions C11_goroutines.
Print Assumptions C13_entry_points.
