(** Theorems for properties C01-C10, C14-C16 (package accumulator, integers as exponents).
    Statements only use the vocabulary of Spec.v, the modelled functions and, for goroutines, the
    notions always_returns / may_crash / may_return of ForkJoin.v. *)
From Coq Require Import ZArith Bool Lia List Permutation.
From Verif Require Import GoBig GoBigFacts Spec AccModel AccFacts AccProofs ForkJoin ParModel ParProofs
  IterModel IterProofs.
Import ListNotations.
Open Scope Z_scope.

(** ** C01 *)
Theorem C01_set_products : forall l,
  SetProduct l = product l /\ SetProduct2 l = product l /\
  SetProductRecursive l = Ret (product l) /\ SetProductRecursiveFast l = Ret (product l).
Proof.
  intros l. repeat split;
    [apply SetProduct_spec|apply SetProduct2_spec|apply SetProductRecursive_spec|apply SetProductRecursiveFast_spec].
Qed.
Example C01_case : SetProductRecursive [2; -3; 5; 7; 11] = Ret (-2310) /\ product [] = 1.
Proof. split; reflexivity. Qed.

(** ** C02 *)
Theorem C02_set_product_parallel : forall set limit,
  always_returns sp_expand (SPTop set limit) (product set).
Proof. intros. exact (sp_always_returns (SPTop set limit)). Qed.
(** a schedule of a real fork: the right child runs first *)
Example C02_case : may_return sp_expand (SPTop [2; 3; 5; 7] 1) 210.
Proof. exists [[]; [1%nat]; [0%nat]; []; []; []]. vm_compute. reflexivity. Qed.

(** ** C03 *)
Theorem C03_prove_membership :
  (forall base N set, 0 < N -> 0 <= base < N -> Forall (fun x => 0 <= x) set -> set <> [] ->
     exists proofs, ProveMembership base N set = Ret proofs /\ witnesses base N set proofs) /\
  (forall base N, ProveMembership base N [] = Panic).
Proof. split; [exact ProveMembership_witnesses|exact ProveMembership_empty]. Qed.
Example C03_case : ProveMembership 3 101 [2; 3; 5; 7; 11] =
  Ret [3 ^ 1155 mod 101; 3 ^ 770 mod 101; 3 ^ 462 mod 101; 3 ^ 330 mod 101; 3 ^ 210 mod 101].
Proof. vm_compute. reflexivity. Qed.

(** ** C04 *)
Theorem C04_witnesses_verify : forall base N set proofs i w x,
  0 < N -> 0 <= base < N -> Forall (fun y => 0 <= y) set ->
  ProveMembership base N set = Ret proofs ->
  nth_error proofs i = Some w -> nth_error set i = Some x ->
  verifies N w x (base ^ product set mod N).
Proof.
  intros base N set proofs i w x HN Hb Hs HP Hw Hx.
  assert (Hne : set <> []) by (intros ->; destruct i; discriminate).
  destruct (ProveMembership_witnesses base N set HN Hb Hs Hne) as (p & Ep & Hp).
  rewrite HP in Ep. injection Ep as ->. eapply witness_verifies; eauto.
Qed.
Example C04_case : (3 ^ 770 mod 101) ^ 3 mod 101 = 3 ^ 2310 mod 101.
Proof. vm_compute. reflexivity. Qed.

(** ** C05 *)
Theorem C05_iter_agrees : forall base N set, 0 < N -> 0 <= base < N -> Forall (fun x => 0 <= x) set ->
  (set = [] -> ProveMembershipIter_val base N set = Ret []) /\
  (set <> [] -> ProveMembershipIter_val base N set = ProveMembership base N set).
Proof.
  intros base N set HN Hb Hs. split.
  - intros ->. apply ProveMembershipIter_val_empty.
  - intros Hne. rewrite ProveMembershipIter_val_spec, ProveMembership_wit by (auto; now right). reflexivity.
Qed.
Example C05_case : ProveMembershipIter_val 3 101 [2; 3; 5; 7; 11] = Ret [60; 17; 21; 6; 65].
Proof. vm_compute. reflexivity. Qed.

(** ** C06: [m] is the caller's memory, [N] and [set] are addresses in it (possibly repeated), the
    results are addresses in the memory [m'] after the call *)
Theorem C06_iter_frame : forall m base N set n vals,
  nth_error m N = Some n -> Forall2 (fun a v => nth_error m a = Some v) set vals ->
  0 < n -> 0 <= base < n -> Forall (fun x => 0 <= x) vals ->
  exists m' ps, ProveMembershipIter m base N set = Ret (m', ps) /\
    (forall a v, nth_error m a = Some v -> nth_error m' a = Some v) /\
    NoDup ps /\ Forall (fun a => (length m <= a < length m')%nat) ps /\
    (set <> [] -> length ps = length set).
Proof.
  intros m base N set n vals HN Hset Hn Hb Hv.
  destruct set as [|a0 set].
  - exists m, []. split; [reflexivity|]. split; [auto|]. split; [constructor|]. split; [constructor|congruence].
  - destruct (Iter_spec m N (a0 :: set) n vals base HN Hset Hn Hv ltac:(discriminate) ltac:(now right))
      as (m' & ps & E & Hl & Hf & Hd & Hge & HL).
    exists m', ps. split; [exact E|]. split; [exact Hf|]. split; [exact Hd|]. split; [|auto].
    apply load_all_bound in HL. rewrite Forall_forall in *. auto.
Qed.
(** modulus at 0, one representative at address 1, used twice, the other at 2 *)
Example C06_case : exists m', ProveMembershipIter [101; 5; 7] 3 0%nat [1; 1; 2]%nat = Ret (m', [3; 4; 5]%nat)
  /\ firstn 3 m' = [101; 5; 7] /\ skipn 3 m' = [3 ^ 35 mod 101; 3 ^ 35 mod 101; 3 ^ 25 mod 101].
Proof. eexists. vm_compute. repeat split. Qed.

(** ** C07 *)
Theorem C07_parallel : forall N base set limit, 0 < N -> 0 <= base < N ->
  Forall (fun x => 0 <= x) set -> set <> [] ->
  exists proofs, ProveMembership base N set = Ret proofs /\
    always_returns (pm_expand N) (PMParallel base set limit) proofs.
Proof.
  intros N base set limit HN Hb Hs Hne. exists (wit base N 1 set). split.
  - apply ProveMembership_wit; auto. now right.
  - apply (pm_always_returns N (PMParallel base set limit)); auto. split; [exact Hs|]. split; [now right|exact Hne].
Qed.
Example C07_case : may_return (pm_expand 101) (PMParallel 3 [2; 3; 5; 7; 11] 1) [60; 17; 21; 6; 65].
Proof. exists [[]; [3]; [1]; [0]; [2]; []; []; []; []; []]%nat. vm_compute. reflexivity. Qed.

(** ** C08 *)
Theorem C08_parallel_with_table : forall N base set limit, 0 < N -> 0 <= base < N ->
  Forall (fun x => 0 <= x) set -> set <> [] ->
  exists proofs, ProveMembership base N set = Ret proofs /\
    always_returns (pm_expand N) (PMTable base set limit) proofs.
Proof.
  intros N base set limit HN Hb Hs Hne. exists (wit base N 1 set). split.
  - apply ProveMembership_wit; auto. now right.
  - apply (pm_always_returns N (PMTable base set limit)); auto. split; [exact Hs|]. split; [now right|exact Hne].
Qed.
Example C08_case : may_return (pm_expand 101) (PMTable 3 [2; 3; 5; 7; 11] 1) [60; 17; 21; 6; 65].
Proof. exists [[]; [3]; [1]; [0]; [2]; []; []; []; []; []]%nat. vm_compute. reflexivity. Qed.

(** ** C09 *)
Theorem C09_randomizer : forall base r N set, 0 < N -> 0 <= r -> Forall (fun x => 0 <= x) set ->
  ((length set < 4)%nat -> ProveMembershipSingleThreadWithRandomizer base r N set = Panic) /\
  ((4 <= length set)%nat -> exists proofs,
     ProveMembershipSingleThreadWithRandomizer base r N set = Ret proofs /\
     length proofs = length set /\
     (forall i w, nth_error proofs i = Some w -> w = base ^ (r * product (without i set)) mod N) /\
     (forall i w x, nth_error proofs i = Some w -> nth_error set i = Some x ->
        verifies N w x (base ^ (r * product set) mod N))).
Proof.
  intros base r N set HN Hr Hs. split; intros Hl.
  - now apply Randomizer_small.
  - eexists. split; [now apply Randomizer_spec|]. apply (Randomizer_witnesses base r N set); auto.
    now apply Randomizer_spec.
Qed.
Example C09_case : ProveMembershipSingleThreadWithRandomizer 3 13 101 [2; 3; 5; 7] =
  Ret [3 ^ 1365 mod 101; 3 ^ 910 mod 101; 3 ^ 546 mod 101; 3 ^ 390 mod 101].
Proof. vm_compute. reflexivity. Qed.

(** ** C10: refuted for limit > 0 (randomizer forgotten), proved for limit <= 0 *)
Theorem C10_randomizer_any_limit_refuted : exists N base r set limit proofs w x,
  0 < N /\ 0 <= base < N /\ 0 <= r /\ Forall (fun y => 0 <= y) set /\ 0 < limit /\
  always_returns (pm_expand N) (PMRandomizer base r set limit) proofs /\
  always_returns (pm_expand N) (PMRandomizerChan base r set limit) proofs /\
  nth_error proofs 0 = Some w /\ nth_error set 0 = Some x /\
  ~ verifies N w x (base ^ (r * product set) mod N).
Proof.
  exists 101, 3, 13, [2; 3; 5; 7], 1, (wit 3 101 1 [2; 3; 5; 7]), (3 ^ 105 mod 101), 2.
  repeat match goal with |- _ /\ _ => split end; try lia; try reflexivity.
  - repeat constructor; lia.
  - apply (pm_always_returns 101 (PMRandomizer 3 13 [2; 3; 5; 7] 1)); [lia|]. split; [repeat constructor; cbn; lia|cbn; lia].
  - apply (pm_always_returns 101 (PMRandomizerChan 3 13 [2; 3; 5; 7] 1)); [lia|]. split; [repeat constructor; cbn; lia|cbn; lia].
  - vm_compute. discriminate.
Qed.
(** what does hold: the randomizer is applied for limit <= 0; for limit > 0 the result is the
    unrandomised witness list; slices shorter than 4 crash some schedule *)
Theorem C10_randomizer_partial : forall N base r set limit, 0 < N -> 0 <= r ->
  Forall (fun y => 0 <= y) set ->
  ((4 <= length set)%nat -> exists proofs,
     always_returns (pm_expand N) (PMRandomizer base r set limit) proofs /\
     always_returns (pm_expand N) (PMRandomizerChan base r set limit) proofs /\
     length proofs = length set /\
     forall i w x, nth_error proofs i = Some w -> nth_error set i = Some x ->
       w = base ^ ((if limit <=? 0 then r else 1) * product (without i set)) mod N /\
       (limit <= 0 -> verifies N w x (base ^ (r * product set) mod N)) /\
       (0 < limit -> verifies N w x (base ^ product set mod N))) /\
  ((length set < 4)%nat -> may_crash (pm_expand N) (PMRandomizer base r set limit)).
Proof.
  intros N base r set limit HN Hr Hs. split; [|intros Hl; now apply pm_randomizer_small_crash].
  intros Hl. exists (wit base N (if limit <=? 0 then r else 1) set).
  split; [|split; [|split]].
  - apply (pm_always_returns N (PMRandomizer base r set limit)); auto. split; [exact Hs|cbn; auto].
  - apply (pm_always_returns N (PMRandomizerChan base r set limit)); auto. split; [exact Hs|cbn; auto].
  - apply wit_length.
  - intros i w x Hw Hx. apply wit_nth in Hw. split; [exact Hw|].
    assert (P : 0 <= product (without i set)) by (apply product_nonneg, without_Forall; assumption).
    assert (Hx0 : 0 <= x) by (revert Hs; rewrite Forall_forall; intros F; apply F; eapply nth_error_In; eauto).
    unfold verifies. subst w. split; intros Hlim; destruct (Z.leb_spec limit 0); try lia;
      rewrite pow_mod_mul by nia; rewrite <- Z.mul_assoc, (without_product set i x Hx); [|rewrite Z.mul_1_l]; reflexivity.
Qed.
Example C10_case : may_return (pm_expand 101) (PMRandomizer 3 13 [2; 3; 5; 7] 0)
   [3 ^ 1365 mod 101; 3 ^ 910 mod 101; 3 ^ 546 mod 101; 3 ^ 390 mod 101].
Proof. exists [[]]. vm_compute. reflexivity. Qed.

(** ** C14 *)
Theorem C14_order_independent : forall base N s1 s2 p1 p2,
  0 < N -> 0 <= base < N -> Forall (fun y => 0 <= y) s1 -> Permutation s1 s2 ->
  ProveMembership base N s1 = Ret p1 -> ProveMembership base N s2 = Ret p2 ->
  base ^ product s1 mod N = base ^ product s2 mod N /\
  (forall i j x w1 w2, nth_error s1 i = Some x -> nth_error s2 j = Some x ->
     nth_error p1 i = Some w1 -> nth_error p2 j = Some w2 -> w1 = w2) /\
  (forall a1 a2 q1 q2, AccAndProve_rep base N s1 = Ret (a1, q1) -> AccAndProve_rep base N s2 = Ret (a2, q2) -> a1 = a2).
Proof.
  intros base N s1 s2 p1 p2 HN Hb Hs HP E1 E2.
  assert (Hs2 : Forall (fun y => 0 <= y) s2) by (eapply Permutation_Forall; eauto).
  assert (N1 : s1 <> []) by (intros ->; discriminate).
  assert (N2 : s2 <> []) by (intros ->; discriminate).
  split; [now apply acc_permutation|]. split.
  - destruct (ProveMembership_witnesses base N s1 HN Hb Hs N1) as (q1 & F1 & W1).
    destruct (ProveMembership_witnesses base N s2 HN Hb Hs2 N2) as (q2 & F2 & W2).
    rewrite E1 in F1. injection F1 as <-. rewrite E2 in F2. injection F2 as <-.
    intros. eapply witness_permutation; eauto.
  - intros a1 a2 q1 q2. rewrite !AccAndProve_rep_spec by auto. intros [= <- _] [= <- _]. now apply acc_permutation.
Qed.
Example C14_case : exists p1 p2, ProveMembership 3 101 [2; 3; 5] = Ret p1 /\ ProveMembership 3 101 [5; 2; 3] = Ret p2
  /\ nth_error p1 2 = nth_error p2 0 /\ Permutation [2; 3; 5] [5; 2; 3].
Proof.
  eexists _, _. vm_compute. repeat split. change (Permutation ([2; 3] ++ [5]) (5 :: [2; 3])).
  apply Permutation_sym, Permutation_cons_append.
Qed.

(** ** C15 *)
Theorem C15_incremental :
  (forall base N A B, 0 < N -> Forall (fun y => 0 <= y) A -> Forall (fun y => 0 <= y) B ->
     AccumulateNew (base ^ product A mod N) (product B) N = base ^ product (A ++ B) mod N /\
     (0 <= base < N -> accumulate_val (accumulate_val base N A) N B = accumulate_val base N (A ++ B) /\
        accumulate_val base N (A ++ B) = base ^ product (A ++ B) mod N)) /\
  (forall base N A y p p' i w w', 0 < N -> 0 <= base < N -> Forall (fun z => 0 <= z) A -> 0 <= y ->
     ProveMembership base N A = Ret p -> ProveMembership base N (A ++ [y]) = Ret p' ->
     nth_error p i = Some w -> nth_error p' i = Some w' -> AccumulateNew w y N = w') /\
  (forall base N A p i w, 0 < N -> 0 <= base < N -> Forall (fun z => 0 <= z) A ->
     ProveMembership base N A = Ret p -> nth_error p i = Some w ->
     w = accumulate_val base N (without i A)).
Proof.
  split; [|split].
  - intros base N A B HN HA HB. split; [now apply accumulate_app|]. intros Hb. split.
    + unfold accumulate_val. now rewrite fold_left_app.
    + apply accumulate_val_spec'; [exact HN|exact Hb|]. apply Forall_app. split; assumption.
  - intros base N A y p p' i w w' HN Hb HA Hy E1 E2 Hw Hw'.
    assert (N1 : A <> []) by (intros ->; discriminate).
    assert (HA2 : Forall (fun z => 0 <= z) (A ++ [y])) by (apply Forall_app; auto).
    destruct (ProveMembership_witnesses base N A HN Hb HA N1) as (q1 & F1 & W1).
    destruct (ProveMembership_witnesses base N (A ++ [y]) HN Hb HA2 ltac:(destruct A; discriminate)) as (q2 & F2 & W2).
    rewrite E1 in F1. injection F1 as <-. rewrite E2 in F2. injection F2 as <-.
    exact (witness_update base N A y p p' i w w' HN HA Hy W1 W2 Hw Hw').
  - intros base N A p i w HN Hb HA E Hw.
    assert (N1 : A <> []) by (intros ->; discriminate).
    destruct (ProveMembership_witnesses base N A HN Hb HA N1) as (q & F & _ & W).
    rewrite E in F. injection F as <-.
    rewrite accumulate_val_spec' by auto using without_Forall. now apply W.
Qed.
Example C15_case : ProveMembership 3 101 [2; 5] = Ret [41; 9] /\ ProveMembership 3 101 [2; 5; 7] = Ret [AccumulateNew 41 7 101; AccumulateNew 9 7 101; 3 ^ 10 mod 101].
Proof. vm_compute. split; reflexivity. Qed.

(** ** C16 *)
Theorem C16_zk_accumulate : forall G N r rep, 0 < N -> 0 <= r -> Forall (fun y => 0 <= y) rep ->
  (rep = [] -> ZKAccumulate_rep G N r rep = Panic) /\
  (rep <> [] -> exists acc proofs, ZKAccumulate_rep G N r rep = Ret (acc, proofs) /\
     acc = G ^ (r * product rep) mod N /\ length proofs = length rep /\
     forall i w x, nth_error proofs i = Some w -> nth_error rep i = Some x -> verifies N w x acc).
Proof.
  intros G N r rep HN Hr Hrep. split; [intros ->; reflexivity|]. intros Hne.
  eexists _, _. split; [now apply ZKAccumulate_rep_spec|]. split; [reflexivity|]. split; [apply wit_length|].
  intros i w x Hw Hx. apply wit_nth in Hw. subst w. unfold verifies.
  assert (P : 0 <= product (without i rep)) by (apply product_nonneg, without_Forall; assumption).
  assert (Hx0 : 0 <= x) by (revert Hrep; rewrite Forall_forall; intros F; apply F; eapply nth_error_In; eauto).
  rewrite pow_mod_mul by nia. rewrite <- Z.mul_assoc, (without_product rep i x Hx). reflexivity.
Qed.
Example C16_case : ZKAccumulate_rep 3 101 13 [2; 5] = Ret (3 ^ 130 mod 101, [3 ^ 65 mod 101; 3 ^ 26 mod 101]).
Proof. vm_compute. reflexivity. Qed.

Print Assumptions C01_set_products.
Print Assumptions C02_set_product_parallel.
Print Assumptions C03_prove_membership.
Print Assumptions C04_witnesses_verify.
Print Assumptions C05_iter_agrees.
Print Assumptions C06_iter_frame.
Print Assumptions C07_parallel.
Print Assumptions C08_parallel_with_table.
Print Assumptions C09_randomizer.
Print Assumptions C10_randomizer_any_limit_refuted.
Print Assumptions C10_randomizer_partial.
Print Assumptions C14_order_independent.
Print Assumptions C15_incremental.
Print Assumptions C16_zk_accumulate.
