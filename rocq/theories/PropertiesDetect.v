(** Theorems for property C125: what the accumulator tests of /repo would notice. The checks are applied
    to an arbitrary accumulator and arbitrary proofs, as if a wrong implementation had returned them. *)
From Coq Require Import ZArith Bool Lia String List.
From Verif Require Import GoBig GoBigFacts Spec AccModel AccFacts AccProofs IterProofs HashModel HashProofs SuiteModel PropertiesSuite.
Import ListNotations.
Open Scope Z_scope.

Section Detect.
Variable sha : string -> string.
Variable is_prime : Z -> bool.
Variable poseidon : list Z -> Z.
Variable fuel : nat.
Hypothesis Hpos : forall l, 0 <= poseidon l.
Notation GenRep := (GenRepresentatives sha is_prime poseidon fuel).

(** the proof at position [i] is there and, raised to its representative, gives [acc] *)
Definition opens (rep : list Z) (proofs : list (option Z)) (acc : Z) (i : nat) : Prop :=
  exists p r, nth_error proofs i = Some (Some p) /\ nth_error rep i = Some r /\ verifies gN p r acc.

Lemma AccNew_value : forall rep i p r, nonneg rep -> nth_error rep i = Some r -> AccumulateNew p r gN = p ^ r mod gN.
Proof.
  intros rep i p r Hr E. destruct setup_bounds as [B _]. apply AccumulateNew_spec; [lia|].
  rewrite Forall_forall in Hr. apply Hr. eapply nth_error_In; eauto.
Qed.

Lemma iter_checks_exact : forall set rep, GenRep set HashToPrimeFromSha256 = Ret rep -> forall idx want acc proofs,
  passes (iter_checks sha is_prime poseidon fuel set idx want acc proofs) <->
  (length proofs = want /\ acc = gG ^ product rep mod gN /\ opens rep proofs acc idx).
Proof.
  intros set rep Er idx want acc proofs. pose proof (GenRep_nonneg _ _ _ _ _ _ _ Hpos Er) as Hr.
  destruct setup_bounds as [B _]. unfold passes, iter_checks, genAccts. rewrite Er. cbn [bind]. fold gN. fold gG.
  rewrite accumulate_val_spec' by (try assumption; lia). unfold go_index.
  destruct (nth_error proofs idx) as [[p|]|] eqn:Ep; cbn [deref bind].
  - destruct (nth_error rep idx) as [r|] eqn:Erp; cbn [deref bind].
    + rewrite (AccNew_value rep idx p r Hr Erp).
      destruct (Nat.eqb_spec (length proofs) want) as [El|El]; cbn [negb].
      * destruct (Z.eqb_spec acc (p ^ r mod gN)) as [E1|E1]; cbn [negb].
        -- destruct (Z.eqb_spec (gG ^ product rep mod gN) (p ^ r mod gN)) as [E2|E2]; cbn [negb].
           ++ split; [intros _|reflexivity]. split; [exact El|]. split; [congruence|]. exists p, r. unfold verifies. auto.
           ++ split; [discriminate|]. intros (_ & E & p' & r' & Q1 & Q2 & Q3). congruence.
        -- split; [discriminate|]. intros (_ & E & p' & r' & Q1 & Q2 & Q3). exfalso. apply E1. unfold verifies in Q3. congruence.
      * split; [discriminate|]. intros (E & _). contradiction.
    + split; [discriminate|]. intros (_ & _ & p' & r' & Q1 & Q2 & Q3). congruence.
  - split; [discriminate|]. intros (_ & _ & p' & r' & Q1 & Q2 & Q3). congruence.
  - split; [discriminate|]. intros (_ & _ & p' & r' & Q1 & Q2 & Q3). congruence.
Qed.

Lemma expect_nil : forall b m, expect b m = [] <-> b = true.
Proof. intros [] m; cbn; split; congruence. Qed.

Lemma again_exact : forall rep proofs acc, nonneg rep -> forall again,
  (exists es, map_outcome (fun i => do p <- go_index proofs i; do r <- go_index rep i; Ret (expect (acc =? AccumulateNew p r gN) inconsistent)) again = Ret es /\
     concat es = []) <-> Forall (opens rep (map Some proofs) acc) again.
Proof.
  intros rep proofs acc Hr. induction again as [|i again IH]; cbn [map_outcome].
  - split; [constructor|]. intros _. exists []. auto.
  - unfold go_index in *. destruct (nth_error proofs i) as [p|] eqn:Ep; cbn [deref bind].
    2: { split; [intros (es & E & _); discriminate|]. intros F. inversion F as [|? ? (p & r & Q & _) _]; subst. rewrite nth_error_map, Ep in Q. discriminate. }
    destruct (nth_error rep i) as [r|] eqn:Erp; cbn [deref bind].
    2: { split; [intros (es & E & _); discriminate|]. intros F. inversion F as [|? ? (p' & r' & _ & Q & _) _]; subst. congruence. }
    rewrite (AccNew_value rep i p r Hr Erp).
    assert (O : opens rep (map Some proofs) acc i <-> acc = p ^ r mod gN).
    { unfold opens, verifies. rewrite nth_error_map, Ep. cbn [option_map]. split.
      - intros (p' & r' & [= <-] & Q2 & Q3). congruence.
      - intros ->. exists p, r. auto. }
    destruct (map_outcome _ again) as [es| |] eqn:Em; cbn [bind].
    + split.
      * intros (es' & [= <-] & C). cbn [concat] in C. apply app_eq_nil in C. destruct C as [C1 C2].
        apply expect_nil, Z.eqb_eq in C1. constructor; [now apply O|]. apply IH. eauto.
      * intros F. inversion F as [|? ? F1 F2]; subst. apply O in F1. apply IH in F2. destruct F2 as (es' & [= <-] & C).
        eexists. split; [reflexivity|]. cbn [concat]. rewrite C, app_nil_r. apply expect_nil, Z.eqb_eq. exact F1.
    + split; [intros (es & E & _); discriminate|]. intros F. inversion F; subst. apply IH in H2. destruct H2 as (es & E & _). discriminate.
    + split; [intros (es & E & _); discriminate|]. intros F. inversion F; subst. apply IH in H2. destruct H2 as (es & E & _). discriminate.
Qed.

Lemma acc_checks_exact : forall set rep, GenRep set HashToPrimeFromSha256 = Ret rep -> forall idx again acc proofs,
  passes (acc_and_prove_checks sha is_prime poseidon fuel set idx again acc proofs) <->
  (length proofs = length set /\ acc = gG ^ product rep mod gN /\ Forall (opens rep (map Some proofs) acc) (idx :: again)).
Proof.
  intros set rep Er idx again acc proofs. pose proof (GenRep_nonneg _ _ _ _ _ _ _ Hpos Er) as Hr.
  destruct setup_bounds as [B _]. unfold passes, acc_and_prove_checks. rewrite Er. cbv zeta. cbn [bind]. fold gN. fold gG.
  rewrite accumulate_val_spec' by (try assumption; lia). pose proof (again_exact rep proofs acc Hr again) as AG.
  unfold go_index at 1 2. destruct (nth_error proofs idx) as [p|] eqn:Ep; cbn [deref bind].
  2: { split; [discriminate|]. intros (_ & _ & F). inversion F as [|? ? (p & r & Q & _) _]; subst. rewrite nth_error_map, Ep in Q. discriminate. }
  destruct (nth_error rep idx) as [r|] eqn:Erp; cbn [deref bind].
  2: { split; [discriminate|]. intros (_ & _ & F). inversion F as [|? ? (p' & r' & _ & Q & _) _]; subst. congruence. }
  rewrite (AccNew_value rep idx p r Hr Erp).
  assert (O : opens rep (map Some proofs) acc idx <-> acc = p ^ r mod gN).
  { unfold opens, verifies. rewrite nth_error_map, Ep. cbn [option_map]. split.
    - intros (p' & r' & [= <-] & Q2 & Q3). congruence.
    - intros ->. exists p, r. auto. }
  destruct (map_outcome _ again) as [es| |] eqn:Em; cbn [bind].
  - split.
    + intros [= E]. apply app_eq_nil in E. destruct E as [E1 E]. apply app_eq_nil in E. destruct E as [E2 E].
      apply app_eq_nil in E. destruct E as [E3 E4]. apply expect_nil in E1, E2, E3. apply Nat.eqb_eq in E1. apply Z.eqb_eq in E2, E3.
      split; [congruence|]. split; [congruence|]. constructor; [now apply O|]. apply AG. eauto.
    + intros (E1 & E2 & F). inversion F as [|? ? F1 F2]; subst x l. apply O in F1. apply AG in F2. destruct F2 as (es' & [= <-] & C).
      rewrite C, !app_nil_r. f_equal. rewrite (proj2 (expect_nil _ _)) by (apply Nat.eqb_eq; auto).
      rewrite (proj2 (expect_nil _ _)) by (apply Z.eqb_eq; exact F1). rewrite (proj2 (expect_nil _ _)) by (apply Z.eqb_eq; congruence). reflexivity.
  - split; [discriminate|]. intros (_ & _ & F). inversion F as [|? ? F1 F2]; subst x l. apply AG in F2. destruct F2 as (es & E & _). discriminate.
  - split; [discriminate|]. intros (_ & _ & F). inversion F as [|? ? F1 F2]; subst x l. apply AG in F2. destruct F2 as (es & E & _). discriminate.
Qed.
End Detect.

(** ** C125 *)
(** what the checks establish about the accumulator and the proofs they are given: the right number of proofs, the
    right accumulator, and a valid proof at the positions looked at *)
Theorem C125_exact : forall sha is_prime poseidon fuel set rep acc, (forall l, 0 <= poseidon l) ->
  GenRepresentatives sha is_prime poseidon fuel set HashToPrimeFromSha256 = Ret rep ->
  (forall idx want proofs, passes (iter_checks sha is_prime poseidon fuel set idx want acc proofs) <->
     (length proofs = want /\ acc = gG ^ product rep mod gN /\
      exists p r, nth_error proofs idx = Some (Some p) /\ nth_error rep idx = Some r /\ verifies gN p r acc)) /\
  (forall idx again proofs, passes (acc_and_prove_checks sha is_prime poseidon fuel set idx again acc proofs) <->
     (length proofs = length set /\ acc = gG ^ product rep mod gN /\
      forall i, In i (idx :: again) -> exists p r, nth_error proofs i = Some p /\ nth_error rep i = Some r /\ verifies gN p r acc)).
Proof.
  intros sha is_prime poseidon fuel set rep acc Hpos Er. split.
  - intros idx want proofs. apply (iter_checks_exact sha is_prime poseidon fuel Hpos set rep Er).
  - intros idx again proofs. rewrite (acc_checks_exact sha is_prime poseidon fuel Hpos set rep Er). rewrite Forall_forall.
    assert (O : forall i, opens rep (map Some proofs) acc i <-> exists p r, nth_error proofs i = Some p /\ nth_error rep i = Some r /\ verifies gN p r acc).
    { intros i. unfold opens. rewrite nth_error_map. split.
      - intros (p & r & Q & Q'). destruct (nth_error proofs i) as [p'|]; [|discriminate]. injection Q as ->. eauto.
      - intros (p & r & Q & Q'). exists p, r. rewrite Q. auto. }
    split; intros (E1 & E2 & F); repeat split; try assumption; intros i Hi; apply O, F, Hi.
Qed.

(** any other proof may be anything *)
Theorem C125_unseen : forall sha is_prime poseidon fuel set rep proofs, (forall l, 0 <= poseidon l) ->
  GenRepresentatives sha is_prime poseidon fuel set HashToPrimeFromSha256 = Ret rep -> witnesses gG gN rep proofs ->
  forall idx again j q, (idx < length set)%nat -> Forall (fun i => (i < length set)%nat) again -> (j < length set)%nat -> ~ In j (idx :: again) ->
  let wrong := firstn j proofs ++ q :: skipn (S j) proofs in
  let acc := gG ^ product rep mod gN in
  nth_error wrong j = Some q /\
  passes (acc_and_prove_checks sha is_prime poseidon fuel set idx again acc wrong) /\
  passes (iter_checks sha is_prime poseidon fuel set idx (length set) acc (map Some wrong)).
Proof.
  intros sha is_prime poseidon fuel set rep proofs Hpos Er W idx again j q Hi Ha Hj Hn wrong acc.
  pose proof (GenRep_nonneg _ _ _ _ _ _ _ Hpos Er) as Hr. pose proof (GenRep_length _ _ _ _ _ _ _ Er) as Lr.
  assert (Lp : length proofs = length rep) by apply W.
  assert (NT : forall i, nth_error wrong i = if (i =? j)%nat then Some q else nth_error proofs i) by (intros i; apply nth_update; lia).
  assert (Lw : length wrong = length set) by (unfold wrong; rewrite length_update by lia; lia).
  assert (V : forall i, In i (idx :: again) -> exists p r, nth_error wrong i = Some p /\ nth_error rep i = Some r /\ verifies gN p r acc).
  { intros i Hin. assert (Lt : (i < length set)%nat) by (destruct Hin as [<-|Hin]; [exact Hi|]; rewrite Forall_forall in Ha; now apply Ha).
    rewrite NT. destruct (Nat.eqb_spec i j) as [->|]; [contradiction|].
    destruct (nth_error proofs i) as [p|] eqn:Ep; [|apply nth_error_None in Ep; lia].
    destruct (nth_error rep i) as [r|] eqn:Erp; [|apply nth_error_None in Erp; lia].
    exists p, r. split; [reflexivity|]. split; [reflexivity|]. destruct setup_bounds as [B _]. eapply witness_verifies; eauto; lia. }
  destruct (C125_exact sha is_prime poseidon fuel set rep acc Hpos Er) as [X1 X2].
  split; [rewrite NT, Nat.eqb_refl; reflexivity|]. split.
  - apply X2. split; [exact Lw|]. split; [reflexivity|exact V].
  - apply X1. split; [rewrite map_length; exact Lw|]. split; [reflexivity|].
    destruct (V idx (or_introl eq_refl)) as (p & r & Q1 & Q2 & Q3). exists p, r. rewrite nth_error_map, Q1. auto.
Qed.

(** a wrong accumulator, and a proof that does not open it at a position looked at, never pass *)
Theorem C125_seen_partial : forall sha is_prime poseidon fuel set rep acc, (forall l, 0 <= poseidon l) ->
  GenRepresentatives sha is_prime poseidon fuel set HashToPrimeFromSha256 = Ret rep ->
  (acc <> gG ^ product rep mod gN ->
     (forall idx want proofs, ~ passes (iter_checks sha is_prime poseidon fuel set idx want acc proofs)) /\
     (forall idx again proofs, ~ passes (acc_and_prove_checks sha is_prime poseidon fuel set idx again acc proofs))) /\
  (forall idx want proofs p r, nth_error proofs idx = Some (Some p) -> nth_error rep idx = Some r -> ~ verifies gN p r acc ->
     ~ passes (iter_checks sha is_prime poseidon fuel set idx want acc proofs)) /\
  (forall idx again i proofs p r, In i (idx :: again) -> nth_error proofs i = Some p -> nth_error rep i = Some r -> ~ verifies gN p r acc ->
     ~ passes (acc_and_prove_checks sha is_prime poseidon fuel set idx again acc proofs)).
Proof.
  intros sha is_prime poseidon fuel set rep acc Hpos Er. destruct (C125_exact sha is_prime poseidon fuel set rep acc Hpos Er) as [X1 X2].
  split; [|split].
  - intros Hne. split; [intros idx want proofs P; apply X1 in P|intros idx again proofs P; apply X2 in P]; tauto.
  - intros idx want proofs p r Q1 Q2 Hv P. apply X1 in P. destruct P as (_ & _ & p' & r' & Q1' & Q2' & Q3').
    apply Hv. congruence.
  - intros idx again i proofs p r Hi Q1 Q2 Hv P. apply X2 in P. destruct P as (_ & _ & F).
    destruct (F i Hi) as (p' & r' & Q1' & Q2' & Q3'). apply Hv. congruence.
Qed.

(** a set of three with representatives found at once; the proof at position 2 is replaced by the modulus *)
Theorem C125_refuted : exists sha is_prime poseidon fuel set rep proofs, (forall l : list Z, 0 <= poseidon l) /\
  GenRepresentatives sha is_prime poseidon fuel set HashToPrimeFromSha256 = Ret rep /\ length proofs = 3%nat /\ ~ witnesses gG gN rep proofs /\
  passes (acc_and_prove_checks sha is_prime poseidon fuel set 0 [1%nat] (gG ^ product rep mod gN) proofs) /\
  passes (iter_checks sha is_prime poseidon fuel set 0 3 (gG ^ product rep mod gN) (map Some proofs)).
Proof.
  set (S := ["a"; "b"; "c"]%string). set (T := fun _ : Z => true). set (P := fun _ : list Z => 0).
  assert (Hp : forall l : list Z, 0 <= P l) by (intros; unfold P; lia).
  assert (E : exists rep, GenRepresentatives (fun s => s) T P 5 S HashToPrimeFromSha256 = Ret rep /\ length rep = 3%nat).
  { eexists. split; [vm_compute; reflexivity|reflexivity]. }
  destruct E as (rep & Er & L).
  assert (W : witnesses gG gN rep (wit gG gN 1 rep)) by apply wit_witnesses.
  assert (NI : ~ In 2%nat [0; 1]%nat) by (intros [H|[H|[]]]; discriminate).
  assert (LS : length S = 3%nat) by reflexivity.
  assert (H0 : (0 < length S)%nat) by (rewrite LS; lia). assert (H2 : (2 < length S)%nat) by (rewrite LS; lia).
  assert (HA : Forall (fun i => (i < length S)%nat) [1%nat]) by (constructor; [rewrite LS; lia|constructor]).
  pose proof (C125_unseen (fun s => s) T P 5 S rep (wit gG gN 1 rep) Hp Er W 0 [1%nat] 2 gN H0 HA H2 NI) as X. cbv zeta in X.
  remember (firstn 2 (wit gG gN 1 rep) ++ gN :: skipn 3 (wit gG gN 1 rep)) as wrong eqn:Ew. rewrite LS in X. destruct X as (N2 & P1 & P2).
  exists (fun s => s), T, P, 5%nat, S, rep, wrong. split; [exact Hp|]. split; [exact Er|].
  split; [rewrite Ew; rewrite length_update by (rewrite wit_length, L; lia); rewrite wit_length; exact L|].
  split; [|split; [exact P1|exact P2]].
  intros [_ F]. specialize (F 2%nat gN N2). destruct setup_bounds as [B _].
  pose proof (Z.mod_pos_bound (gG ^ product (without 2 rep)) gN ltac:(lia)). lia.
Qed.

Print Assumptions C125_exact.
Print Assumptions C125_unseen.
Print Assumptions C125_seen_partial.
Print Assumptions C125_refuted.
