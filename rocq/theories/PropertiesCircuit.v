(** Theorems for properties C51-C60 and C64: the MultiSwap and MerkleSwap circuits.

    poseidon is any function into the field; [mulmod] is the relation enforced by MulModP, about which
    the theorems assume only what they need: [mulmod_sound] (an accepted result is congruent to the
    product) and [mulmod_complete] (the canonical remainder is accepted). Both hold of [exact_mulmod]. *)
From Coq Require Import ZArith Znumtheory Bool Lia Ascii String List Sorted.
From Verif Require Import GoBig GoBigFacts Spec AccModel AccFacts StrFacts HashModel HashProofs FSModel FSProofs CircuitModel CircuitProofs.
Import ListNotations.
Open Scope Z_scope.

Definition exact_mulmod (a b p r : Z) : Prop := 0 < p /\ r = (a * b) mod p.
Lemma exact_sound : mulmod_sound exact_mulmod.
Proof. intros a b p r [Hp ->]. exists (a * b / p). rewrite (Z.mul_comm (a * b / p)). apply Z.div_mod. lia. Qed.
Lemma exact_complete : mulmod_complete exact_mulmod.
Proof. intros a b p _ _ Hp. split; [lia|reflexivity]. Qed.

(** *** Specification, by index *)
Definition users (c : Circuit) : nat := length (UserID c).
Definition same_lengths (ids obs ohs oes ubs : list Z) : Prop :=
  length obs = length ids /\ length ohs = length ids /\ length oes = length ids /\ length ubs = length ids.
(** Π_{i<n} f i *)
Definition prod_upto (n : nat) (f : nat -> Z) : Z := product (map f (seq 0 n)).
(** the leaf of user i before and after the swap; the new one hashes the old one *)
Definition old_leaf (poseidon : list Z -> Z) (c : Circuit) (i : nat) : Z :=
  poseidon [nth i (UserID c) 0; nth i (OriginalBalances c) 0; nth i (OriginalUpdEpoch c) 0; nth i (OriginalHashes c) 0].
Definition new_leaf (poseidon : list Z -> Z) (c : Circuit) (i : nat) : Z :=
  poseidon [nth i (UserID c) 0; nth i (UpdatedBalances c) 0; CurrentEpochNum c; old_leaf poseidon c i].
Definition randomizers (poseidon : list Z -> Z) (r : Z) : Z := prod_upto 8 (fun i => poseidon [r; Z.of_nat i]).

(** *** C51 *)
Definition well_formed (u : UpdateSet32) : Prop :=
  (2 <= length (u_ID u))%nat /\ same_lengths (u_ID u) (u_OB u) (u_OH u) (u_OE u) (u_UB u).
Definition copied (u : UpdateSet32) : Circuit :=
  {| ChallengeL1 := u_L1 u; ChallengeL2 := u_L2 u; RemainderR1 := u_R1 u; RemainderR2 := u_R2 u;
     CurrentEpochNum := u_Epoch u; DeltaModL1 := u_D1 u; DeltaModL2 := u_D2 u; Randomizer1 := u_Rand1 u; Randomizer2 := u_Rand2 u;
     OriginalSum := u_OSum u; UpdatedSum := u_USum u; UserID := u_ID u; OriginalBalances := u_OB u; OriginalHashes := u_OH u;
     OriginalUpdEpoch := u_OE u; UpdatedBalances := u_UB u |}.
Lemma take_all_gen : forall (l pre : list Z), map_outcome (fun i => go_index (pre ++ l) i) (seq (length pre) (length l)) = Ret l.
Proof.
  induction l as [|x l IH]; intros pre; [reflexivity|]. cbn [length seq map_outcome]. unfold go_index at 1.
  rewrite nth_error_app2, Nat.sub_diag by lia. cbn [nth_error bind].
  specialize (IH (pre ++ [x])). rewrite <- app_assoc, app_length in IH. cbn [length app] in IH.
  rewrite Nat.add_1_r in IH. rewrite IH. reflexivity.
Qed.
Lemma take_all : forall l n, length l = n -> take n l = Ret l.
Proof. intros l n <-. exact (take_all_gen l []). Qed.

Theorem C51_is_valid : forall u,
  (IsValid u = true <-> well_formed u) /\
  (AssignCircuit u = Panic <-> ~ well_formed u) /\
  (well_formed u -> AssignCircuit u = Ret (copied u)).
Proof.
  intros u.
  assert (V : IsValid u = true <-> well_formed u).
  { unfold IsValid, well_formed, same_lengths.
    destruct (Nat.ltb_spec (length (u_ID u)) 2); [split; [discriminate|lia]|].
    destruct (Nat.eqb_spec (length (u_ID u)) (length (u_OB u))); cbn [negb]; [|split; [discriminate|lia]].
    destruct (Nat.eqb_spec (length (u_ID u)) (length (u_OH u))); cbn [negb]; [|split; [discriminate|lia]].
    destruct (Nat.eqb_spec (length (u_ID u)) (length (u_OE u))); cbn [negb]; [|split; [discriminate|lia]].
    destruct (Nat.eqb_spec (length (u_ID u)) (length (u_UB u))); cbn [negb]; [|split; [discriminate|lia]].
    split; [intros _; lia|reflexivity]. }
  assert (W : well_formed u -> AssignCircuit u = Ret (copied u)).
  { intros H. unfold AssignCircuit. rewrite (proj2 V H). cbn [negb]. destruct H as (_ & E1 & E2 & E3 & E4).
    rewrite E1, !take_all by congruence. reflexivity. }
  split; [exact V|]. split; [|exact W]. split.
  - intros H HW. rewrite (W HW) in H. discriminate.
  - intros H. unfold AssignCircuit. destruct (IsValid u); [exfalso; tauto|reflexivity].
Qed.
Definition toy_set : UpdateSet32 :=
  {| u_L1 := 7; u_L2 := 11; u_R1 := 1; u_R2 := 2; u_Epoch := 9; u_D1 := 3; u_D2 := 4; u_Rand1 := 5; u_Rand2 := 6; u_OSum := 30; u_USum := 31;
     u_ID := [1; 2; 3]; u_OB := [10; 10; 10]; u_OH := [4; 5; 6]; u_OE := [1; 1; 2]; u_UB := [10; 11; 10] |}.
Example C51_case : well_formed toy_set /\ ~ well_formed {| u_L1 := 7; u_L2 := 11; u_R1 := 1; u_R2 := 2; u_Epoch := 9; u_D1 := 3; u_D2 := 4;
  u_Rand1 := 5; u_Rand2 := 6; u_OSum := 30; u_USum := 31; u_ID := [1; 2; 3]; u_OB := [10; 10; 10]; u_OH := [4; 5; 6]; u_OE := [1; 1]; u_UB := [10; 11; 10] |}.
Proof. split; [repeat split; cbn; lia|]. intros (_ & _ & _ & H & _). discriminate. Qed.

(** *** C52: no assumption on MulModP *)
Lemma sorted_nodup : forall l, StronglySorted Z.lt l -> NoDup l.
Proof.
  induction 1 as [|a l H IH F]; constructor; [|assumption]. intros Hin. rewrite Forall_forall in F. specialize (F a Hin). lia.
Qed.
Definition integrity (c : Circuit) : Prop :=
  (1 <= users c)%nat /\ same_lengths (UserID c) (OriginalBalances c) (OriginalHashes c) (OriginalUpdEpoch c) (UpdatedBalances c) /\
  (forall i j, (i < j < users c)%nat -> nth i (UserID c) 0 < nth j (UserID c) 0) /\ NoDup (UserID c) /\
  (forall i, (i < users c)%nat -> 0 <= nth i (OriginalBalances c) 0 < 2 ^ 32 /\ 0 <= nth i (UpdatedBalances c) 0 < 2 ^ 32 /\
     0 <= nth i (OriginalUpdEpoch c) 0 < CurrentEpochNum c) /\
  0 <= CurrentEpochNum c < 2 ^ 32 /\ 0 <= OriginalSum c < 2 ^ 32 /\ 0 <= UpdatedSum c < 2 ^ 32 /\
  0 <= Randomizer1 c < 2 ^ 32 /\ 0 <= Randomizer2 c < 2 ^ 32 /\
  0 <= RemainderR1 c < ChallengeL1 c /\ 0 <= RemainderR2 c < ChallengeL2 c /\
  0 <= DeltaModL1 c < ChallengeL1 c /\ 0 <= DeltaModL2 c < ChallengeL2 c.
Theorem C52_integrity : forall poseidon mulmod c, in_field c -> satisfied poseidon mulmod c -> integrity c.
Proof.
  intros poseidon mulmod c (HF & F1 & F2 & F3 & F4 & F5) H. apply satisfied_iff in H. destruct H as [S B].
  pose proof S as (S0 & S1 & S2 & S3 & S4). unfold integrity, users.
  destruct (rows_map c S) as (M1 & M2 & M3 & M4 & M5).
  destruct B as (B1 & B2 & D1 & D2 & R1 & R2 & B3 & B4 & B5 & I & G & _). unfold ToBinary, AssertIsLess, BitLength in *.
  repeat match goal with HF : Forall _ (_ :: _) |- _ => inversion HF; clear HF; subst end. unfold in_fr in *.
  assert (SS : StronglySorted Z.lt (UserID c)) by (rewrite <- M1; now apply increasing_sorted).
  split; [assumption|]. split; [repeat split; symmetry; assumption|]. split.
  { clear -SS. induction SS as [|a l HS IH F]; intros i j Hij; cbn [length] in *; [lia|].
    destruct j as [|j]; [lia|]. destruct i as [|i]; cbn [nth].
    - rewrite Forall_forall in F. apply F. apply nth_In. lia.
    - apply IH. lia. }
  split; [now apply sorted_nodup|]. split.
  { intros i Hi. unfold ranges in G. rewrite Forall_forall in G.
    assert (Hin : In (row_at (UserID c) (OriginalBalances c) (OriginalHashes c) (OriginalUpdEpoch c) (UpdatedBalances c) i) (rows c)).
    { unfold rows. apply in_map. apply in_seq. lia. }
    apply G in Hin. cbn [row_at r_ob r_oe r_ub] in Hin. unfold ToBinary, AssertIsLess in Hin. destruct Hin as (X1 & X2 & X3).
    pose proof (proj1 (Forall_forall _ _) F2 (nth i (OriginalBalances c) 0) ltac:(apply nth_In; lia)) as Y1.
    pose proof (proj1 (Forall_forall _ _) F5 (nth i (UpdatedBalances c) 0) ltac:(apply nth_In; lia)) as Y2.
    pose proof (proj1 (Forall_forall _ _) F4 (nth i (OriginalUpdEpoch c) 0) ltac:(apply nth_In; lia)) as Y3. cbv beta in *.
    unfold in_fr in *. unfold BitLength in *. tauto. }
  tauto.
Qed.

(** *** The exact meaning of the circuit: C52, C53 and C54 below are read off from it *)
Lemma nth_eq_map : forall (A B : Type) (f : A -> B) (g : nat -> A) n, map f (map g (seq 0 n)) = map (fun i => f (g i)) (seq 0 n).
Proof. intros. apply map_map. Qed.
Lemma eight_seq : forall (f : Z -> Z), map f eight = map (fun i => f (Z.of_nat i)) (seq 0 8).
Proof. reflexivity. Qed.
Lemma sum_rows : forall c, shape c -> sum_list (map (fun r => r_ub r - r_ob r) (rows c)) = sum_list (UpdatedBalances c) - sum_list (OriginalBalances c).
Proof. intros c S. rewrite sum_map_sub. destruct (rows_map c S) as (_ & -> & _ & -> & _). reflexivity. Qed.
Definition circuit_sum (c : Circuit) : Z :=
  OriginalSum c - sum_list (OriginalBalances c) + sum_list (UpdatedBalances c) + (nth 0 (UpdatedBalances c) 0 - nth 0 (OriginalBalances c) 0).
Lemma start_sum : forall a b c x, (fadd (fsub a b) c + x) mod fr_modulus = (a + x + (c - b)) mod fr_modulus.
Proof.
  intros. unfold fadd, fsub. rewrite Z.add_mod_idemp_l by discriminate.
  replace ((a - b) mod fr_modulus + c + x) with ((a - b) mod fr_modulus + (c + x)) by ring.
  rewrite Z.add_mod_idemp_l by discriminate. f_equal. ring.
Qed.
Theorem circuit_meaning : forall poseidon mulmod c, mulmod_sound mulmod -> mulmod_complete mulmod -> (forall l, in_fr (poseidon l)) -> in_field c ->
  (satisfied poseidon mulmod c <->
   integrity c /\
   RemainderR1 c = (prod_upto (users c) (fun i => (old_leaf poseidon c i + DeltaModL1 c) mod fr_modulus) * randomizers poseidon (Randomizer1 c)) mod ChallengeL1 c /\
   RemainderR2 c = (prod_upto (users c) (fun i => (new_leaf poseidon c i + DeltaModL2 c) mod fr_modulus) * randomizers poseidon (Randomizer2 c)) mod ChallengeL2 c /\
   UpdatedSum c = circuit_sum c mod fr_modulus).
Proof.
  intros poseidon mulmod c MS MC HP HF.
  assert (Q1 : product (map (f1 poseidon c) (rows c) ++ map (rho1 poseidon c) eight) =
    prod_upto (users c) (fun i => (old_leaf poseidon c i + DeltaModL1 c) mod fr_modulus) * randomizers poseidon (Randomizer1 c)).
  { rewrite product_app. unfold rows, randomizers, prod_upto. rewrite map_map. reflexivity. }
  assert (Q2 : product (map (f2 poseidon c) (rows c) ++ map (rho2 poseidon c) eight) =
    prod_upto (users c) (fun i => (new_leaf poseidon c i + DeltaModL2 c) mod fr_modulus) * randomizers poseidon (Randomizer2 c)).
  { rewrite product_app. unfold rows, randomizers, prod_upto. rewrite map_map. reflexivity. }
  rewrite <- Q1, <- Q2. clear Q1 Q2. split.
  - intros H. split; [exact (C52_integrity _ _ _ HF H)|].
    destruct (satisfied_remainders _ _ MS c HF H) as [E1 E2]. split; [exact E1|]. split; [exact E2|].
    apply satisfied_iff in H. destruct H as [S B]. destruct B as (_ & _ & _ & _ & _ & _ & _ & _ & _ & _ & _ & E).
    destruct E as (m1 & m2 & s & n1 & n2 & U & _ & _ & _ & ->). apply user_loop_sum in U. destruct U as [U _].
    rewrite sum_rows, start_sum in U by assumption. destruct HF as [HF _].
    repeat match goal with HF : Forall _ (_ :: _) |- _ => inversion HF; clear HF; subst end. unfold in_fr in *.
    rewrite (Z.mod_small (UpdatedSum c)) in U by assumption. rewrite U. unfold circuit_sum. f_equal. ring.
  - intros (J & E1 & E2 & E3).
    destruct J as (J0 & (L1 & L2 & L3 & L4) & J1 & J2 & J3 & J4 & J5 & J6 & J7 & J8 & J9 & J10 & J11 & J12).
    assert (S : shape c) by (repeat split; auto).
    pose proof HF as [HF' _].
    repeat match goal with HF : Forall _ (_ :: _) |- _ => inversion HF; clear HF; subst end. unfold in_fr in *.
    unfold users in *.
    apply complete_assignment; auto; unfold ToBinary, BitLength; try lia; try tauto.
    + apply sorted_increasing. destruct (rows_map c S) as (-> & _).
      clear -J1. revert J1. induction (UserID c) as [|a l IH]; intros J1; [constructor|].
      constructor; [apply IH; intros i j Hij; apply (J1 (S i) (S j)); cbn; lia|].
      destruct l as [|b l]; constructor. apply (J1 0%nat 1%nat). cbn. lia.
    + apply Forall_forall. intros r Hr. unfold rows in Hr. apply in_map_iff in Hr. destruct Hr as (i & <- & Hi).
      apply in_seq in Hi. cbn [row_at r_ob r_oe r_ub]. destruct (J3 i ltac:(lia)) as (? & ? & ?).
      unfold ToBinary, AssertIsLess, BitLength. tauto.
    + destruct (sums_mod (rows c) (fadd (fsub (OriginalSum c) (nth 0 (OriginalBalances c) 0)) (nth 0 (UpdatedBalances c) 0))) as [E F].
      specialize (F (fadd_fr _ _)). rewrite sum_rows, start_sum in E by assumption.
      rewrite Z.mod_small in E by exact F. rewrite E, E3. unfold circuit_sum. f_equal. ring.
Qed.

(** a concrete satisfying assignment with changed balances *)
Definition toy_pos (l : list Z) : Z := fold_right (fun x a => 31 * a + x + 7) 1 l mod fr_modulus.
Lemma toy_pos_fr : forall l, in_fr (toy_pos l).
Proof. intros. apply Z.mod_pos_bound, fr_pos. Qed.
(** remainders and sum as the circuit computes them *)
Definition completed (poseidon : list Z -> Z) (c : Circuit) : Circuit :=
  {| ChallengeL1 := ChallengeL1 c; ChallengeL2 := ChallengeL2 c;
     RemainderR1 := (prod_upto (users c) (fun i => (old_leaf poseidon c i + DeltaModL1 c) mod fr_modulus) * randomizers poseidon (Randomizer1 c)) mod ChallengeL1 c;
     RemainderR2 := (prod_upto (users c) (fun i => (new_leaf poseidon c i + DeltaModL2 c) mod fr_modulus) * randomizers poseidon (Randomizer2 c)) mod ChallengeL2 c;
     CurrentEpochNum := CurrentEpochNum c; DeltaModL1 := DeltaModL1 c; DeltaModL2 := DeltaModL2 c; Randomizer1 := Randomizer1 c;
     Randomizer2 := Randomizer2 c; OriginalSum := OriginalSum c; UpdatedSum := circuit_sum c; UserID := UserID c;
     OriginalBalances := OriginalBalances c; OriginalHashes := OriginalHashes c; OriginalUpdEpoch := OriginalUpdEpoch c;
     UpdatedBalances := UpdatedBalances c |}.
Lemma completed_satisfied : forall poseidon mulmod c, mulmod_sound mulmod -> mulmod_complete mulmod -> (forall l, in_fr (poseidon l)) ->
  in_field (completed poseidon c) -> integrity (completed poseidon c) -> satisfied poseidon mulmod (completed poseidon c).
Proof.
  intros poseidon mulmod c MS MC HP HF HI. apply circuit_meaning; [assumption..|].
  split; [exact HI|]. split; [reflexivity|]. split; [reflexivity|].
  destruct HI as (_ & _ & _ & _ & _ & _ & _ & U & _). cbn [UpdatedSum completed] in *.
  change (circuit_sum (completed poseidon c)) with (circuit_sum c). rewrite Z.mod_small; [reflexivity|].
  assert (2 ^ 32 < fr_modulus) by reflexivity. lia.
Qed.
Definition toy_circuit : Circuit := completed toy_pos
  {| ChallengeL1 := 1000003; ChallengeL2 := 998244353; RemainderR1 := 0; RemainderR2 := 0; CurrentEpochNum := 9;
     DeltaModL1 := 2 ^ 1023 mod 1000003; DeltaModL2 := 2 ^ 1023 mod 998244353; Randomizer1 := 5; Randomizer2 := 6; OriginalSum := 100; UpdatedSum := 0;
     UserID := [1; 2; 5]; OriginalBalances := [10; 20; 30]; OriginalHashes := [4; 5; 6]; OriginalUpdEpoch := [1; 8; 3]; UpdatedBalances := [10; 25; 5] |}.
Ltac in_field_compute := repeat constructor; vm_compute; congruence.
Lemma toy_in_field : in_field toy_circuit.
Proof. in_field_compute. Qed.
Lemma toy_integrity : integrity toy_circuit.
Proof.
  split; [vm_compute; lia|]. split; [repeat split|]. split.
  { change (users toy_circuit) with 3%nat. intros i j Hij. destruct j as [|[|[|j]]]; destruct i as [|[|i]]; try lia; reflexivity. }
  split. { cbn. repeat constructor; cbn; intuition lia. }
  split. { change (users toy_circuit) with 3%nat. intros i Hi. destruct i as [|[|[|i]]]; [| | |lia]; cbn; lia. }
  repeat split; vm_compute; congruence.
Qed.
Example C52_case : satisfied toy_pos exact_mulmod toy_circuit /\ users toy_circuit = 3%nat /\ UpdatedSum toy_circuit = 80.
Proof.
  split; [|split; reflexivity]. apply completed_satisfied; [exact exact_sound|exact exact_complete|exact toy_pos_fr|exact toy_in_field|exact toy_integrity].
Qed.

(** *** C53 *)
Lemma fr_big : 2 ^ 253 < fr_modulus. Proof. reflexivity. Qed.
(** the law the circuit enforces: the first user's change is counted twice *)
Theorem C53_circuit_law : forall poseidon mulmod c, in_field c -> satisfied poseidon mulmod c -> Z.of_nat (users c) < 2 ^ 200 ->
  UpdatedSum c = OriginalSum c - sum_list (OriginalBalances c) + sum_list (UpdatedBalances c)
                 + (nth 0 (UpdatedBalances c) 0 - nth 0 (OriginalBalances c) 0).
Proof.
  intros poseidon mulmod c HF H Hn. pose proof (C52_integrity _ _ _ HF H) as J.
  apply satisfied_iff in H. destruct H as [S B]. destruct B as (_ & _ & _ & _ & _ & _ & _ & _ & _ & _ & _ & E).
  destruct E as (m1 & m2 & s & n1 & n2 & U & _ & _ & _ & ->). apply user_loop_sum in U. destruct U as [U _].
  rewrite sum_rows, start_sum in U by assumption.
  destruct J as (J0 & (L1 & L2 & L3 & L4) & _ & _ & J3 & _ & J5 & J6 & _).
  assert (A : forall l, length l = length (UserID c) -> (forall i, (i < users c)%nat -> 0 <= nth i l 0 < 2 ^ 32) ->
    0 <= sum_list l <= 2 ^ 32 * Z.of_nat (users c)).
  { intros l Hl Hb. unfold users in *. rewrite <- Hl. apply sum_bound. apply Forall_forall. intros x Hx.
    apply (In_nth _ _ 0) in Hx. destruct Hx as (i & Hi & <-). specialize (Hb i ltac:(lia)). lia. }
  pose proof (A _ L1 (fun i Hi => proj1 (J3 i Hi))) as A1.
  pose proof (A _ L4 (fun i Hi => proj1 (proj2 (J3 i Hi)))) as A2.
  destruct (J3 0%nat J0) as (X & Y & _).
  assert (P : 2 ^ 32 * 2 ^ 200 = 2 ^ 232) by reflexivity.
  assert (T : 2 ^ 32 * Z.of_nat (users c) <= 2 ^ 232) by (rewrite <- P; apply Z.mul_le_mono_nonneg_l; lia).
  set (t := 2 ^ 32 * Z.of_nat (users c)) in *. clearbody t.
  rewrite (Z.mod_small (UpdatedSum c)) in U by (pose proof fr_big; assert (2 ^ 32 < 2 ^ 253) by reflexivity; lia).
  assert (V : UpdatedSum c = circuit_sum c mod fr_modulus).
  { rewrite U. unfold circuit_sum. f_equal. ring. }
  change (UpdatedSum c = circuit_sum c).
  assert (R : - 2 ^ 234 < circuit_sum c < 2 ^ 234).
  { assert (2 ^ 234 = 4 * 2 ^ 232) by reflexivity. assert (2 ^ 32 < 2 ^ 232) by reflexivity. unfold circuit_sum. lia. }
  assert (2 ^ 235 < 2 ^ 253 /\ 2 ^ 234 * 2 = 2 ^ 235 /\ 2 ^ 32 < 2 ^ 234) as (W1 & W2 & W3) by (repeat split; reflexivity).
  pose proof fr_big as FB. generalize dependent (circuit_sum c). intros cs V R. clear -V R J6 W1 W2 W3 FB.
  destruct (Z_le_gt_dec 0 cs) as [P|P].
  - rewrite Z.mod_small in V by lia. exact V.
  - exfalso. assert (E : cs mod fr_modulus = cs + fr_modulus).
    { rewrite <- (Z.mod_small (cs + fr_modulus) fr_modulus) by lia. symmetry.
      rewrite <- (Z.mul_1_l fr_modulus) at 1. apply Z.mod_add. lia. }
    lia.
Qed.
(** the missing part: users whose first entry changes. With an unchanged first balance the sum is
    right, and right sums are accepted *)
Theorem C53_sum_partial : forall poseidon mulmod c, in_field c -> Z.of_nat (users c) < 2 ^ 200 ->
  nth 0 (UpdatedBalances c) 0 = nth 0 (OriginalBalances c) 0 ->
  (satisfied poseidon mulmod c -> UpdatedSum c = OriginalSum c - sum_list (OriginalBalances c) + sum_list (UpdatedBalances c)) /\
  (mulmod_sound mulmod -> mulmod_complete mulmod -> (forall l, in_fr (poseidon l)) ->
   UpdatedSum c = OriginalSum c - sum_list (OriginalBalances c) + sum_list (UpdatedBalances c) ->
   integrity c ->
   RemainderR1 c = (prod_upto (users c) (fun i => (old_leaf poseidon c i + DeltaModL1 c) mod fr_modulus) * randomizers poseidon (Randomizer1 c)) mod ChallengeL1 c ->
   RemainderR2 c = (prod_upto (users c) (fun i => (new_leaf poseidon c i + DeltaModL2 c) mod fr_modulus) * randomizers poseidon (Randomizer2 c)) mod ChallengeL2 c ->
   satisfied poseidon mulmod c).
Proof.
  intros poseidon mulmod c HF Hn E. split.
  - intros H. rewrite (C53_circuit_law _ _ _ HF H Hn). lia.
  - intros MS MC HP U J R1 R2. apply circuit_meaning; [assumption..|]. split; [assumption|]. split; [assumption|]. split; [assumption|].
    assert (W : circuit_sum c = UpdatedSum c) by (unfold circuit_sum; lia). rewrite W. rewrite Z.mod_small; [reflexivity|].
    destruct HF as [HF _]. rewrite Forall_forall in HF. apply HF. cbn. tauto.
Qed.
Example C53_partial_case : satisfied toy_pos exact_mulmod toy_circuit /\ nth 0 (UpdatedBalances toy_circuit) 0 = nth 0 (OriginalBalances toy_circuit) 0 /\
  UpdatedBalances toy_circuit <> OriginalBalances toy_circuit.
Proof. split; [apply C52_case|]. split; [reflexivity|discriminate]. Qed.

(** refuted, in both directions: for every hash, every challenges and every deltas the circuit accepts a
    wrong sum (user 0 gains 1, the sum grows by 2), and it rejects every right sum when the first
    balance changes *)
Definition double_count (poseidon : list Z -> Z) (l1 l2 d1 d2 : Z) : Circuit := completed poseidon
  {| ChallengeL1 := l1; ChallengeL2 := l2; RemainderR1 := 0; RemainderR2 := 0; CurrentEpochNum := 9;
     DeltaModL1 := d1; DeltaModL2 := d2; Randomizer1 := 5; Randomizer2 := 6; OriginalSum := 0; UpdatedSum := 0;
     UserID := [0; 1]; OriginalBalances := [0; 0]; OriginalHashes := [0; 0]; OriginalUpdEpoch := [0; 0]; UpdatedBalances := [1; 0] |}.
Theorem C53_sum_wrong : 
  (forall poseidon mulmod l1 l2 d1 d2, mulmod_sound mulmod -> mulmod_complete mulmod -> (forall l, in_fr (poseidon l)) ->
     0 <= d1 < l1 -> 0 <= d2 < l2 -> l1 < fr_modulus -> l2 < fr_modulus ->
     exists c, ChallengeL1 c = l1 /\ ChallengeL2 c = l2 /\ DeltaModL1 c = d1 /\ DeltaModL2 c = d2 /\ in_field c /\ users c = 2%nat /\
       satisfied poseidon mulmod c /\ UpdatedSum c <> OriginalSum c - sum_list (OriginalBalances c) + sum_list (UpdatedBalances c)) /\
  (forall poseidon mulmod c, in_field c -> Z.of_nat (users c) < 2 ^ 200 ->
     nth 0 (UpdatedBalances c) 0 <> nth 0 (OriginalBalances c) 0 ->
     UpdatedSum c = OriginalSum c - sum_list (OriginalBalances c) + sum_list (UpdatedBalances c) -> ~ satisfied poseidon mulmod c).
Proof.
  split.
  - intros poseidon mulmod l1 l2 d1 d2 MS MC HP D1 D2 F1 F2. exists (double_count poseidon l1 l2 d1 d2).
    do 4 (split; [reflexivity|]).
    assert (HF : in_field (double_count poseidon l1 l2 d1 d2)).
    { unfold double_count. set (c0 := {| ChallengeL1 := l1 |}).
      assert (X1 : in_fr (RemainderR1 (completed poseidon c0))).
      { cbn [completed RemainderR1]. unfold in_fr. change (ChallengeL1 c0) with l1.
        match goal with |- context [?a mod l1] => pose proof (Z.mod_pos_bound a l1) end. lia. }
      assert (X2 : in_fr (RemainderR2 (completed poseidon c0))).
      { cbn [completed RemainderR2]. unfold in_fr. change (ChallengeL2 c0) with l2.
        match goal with |- context [?a mod l2] => pose proof (Z.mod_pos_bound a l2) end. lia. }
      assert (0 < fr_modulus /\ 9 < fr_modulus) by (split; reflexivity).
      split; [|repeat split; repeat constructor; vm_compute; congruence].
      repeat (apply Forall_cons; [first [exact X1|exact X2|cbn; unfold in_fr; lia|vm_compute; split; congruence]|]). constructor. }
    split; [exact HF|]. split; [reflexivity|]. split; [|vm_compute; discriminate].
    apply completed_satisfied; try assumption. unfold double_count in *.
    split; [cbn; lia|]. split; [repeat split|]. split.
    { cbn [users completed UserID length]. unfold users. cbn [completed UserID length]. intros i j Hij. destruct j as [|[|j]]; destruct i as [|i]; try lia; reflexivity. }
    split. { cbn. repeat constructor; cbn; intuition lia. }
    split. { unfold users. cbn [completed UserID length]. intros i Hi. destruct i as [|[|i]]; [| |lia]; cbn; lia. }
    cbn [completed CurrentEpochNum OriginalSum UpdatedSum Randomizer1 Randomizer2 ChallengeL1 ChallengeL2 DeltaModL1 DeltaModL2 RemainderR1 RemainderR2].
    do 3 (split; [vm_compute; split; congruence|]). do 2 (split; [vm_compute; split; congruence|]).
    split; [apply Z.mod_pos_bound; lia|]. split; [apply Z.mod_pos_bound; lia|]. tauto.
  - intros poseidon mulmod c HF Hn D E H. pose proof (C53_circuit_law _ _ _ HF H Hn). lia.
Qed.

Theorem C53_sum_refuted : exists poseidon mulmod c, mulmod_sound mulmod /\ mulmod_complete mulmod /\ (forall l, in_fr (poseidon l)) /\
  in_field c /\ satisfied poseidon mulmod c /\ UpdatedSum c <> OriginalSum c - sum_list (OriginalBalances c) + sum_list (UpdatedBalances c).
Proof.
  assert (P : forall l : list Z, in_fr 7) by (intros; split; [vm_compute; discriminate|reflexivity]).
  destruct (proj1 C53_sum_wrong (fun _ => 7) exact_mulmod 101 103 5 6 exact_sound exact_complete P) as (c & _ & _ & _ & _ & F & _ & S & D);
    try lia; try reflexivity.
  exists (fun _ => 7), exact_mulmod, c. split; [exact exact_sound|]. split; [exact exact_complete|]. auto.
Qed.

(** *** C54 *)
(** the product of the representatives 2^1023 + leaf, and of the randomizers, modulo the challenge *)
Definition honest_R1 (poseidon : list Z -> Z) (c : Circuit) : Z :=
  (prod_upto (users c) (fun i => 2 ^ 1023 + old_leaf poseidon c i) * randomizers poseidon (Randomizer1 c)) mod ChallengeL1 c.
Definition honest_R2 (poseidon : list Z -> Z) (c : Circuit) : Z :=
  (prod_upto (users c) (fun i => 2 ^ 1023 + new_leaf poseidon c i) * randomizers poseidon (Randomizer2 c)) mod ChallengeL2 c.
Definition honest_deltas (c : Circuit) : Prop := DeltaModL1 c = 2 ^ 1023 mod ChallengeL1 c /\ DeltaModL2 c = 2 ^ 1023 mod ChallengeL2 c.
(** no addition leaf + delta exceeds the field modulus *)
Definition no_wrap (poseidon : list Z -> Z) (c : Circuit) : Prop := forall i, (i < users c)%nat ->
  old_leaf poseidon c i + DeltaModL1 c < fr_modulus /\ new_leaf poseidon c i + DeltaModL2 c < fr_modulus.

Lemma product_mod_ext : forall (f g : nat -> Z) l L, (forall i, In i l -> f i mod L = g i mod L) ->
  product (map f l) mod L = product (map g l) mod L.
Proof.
  intros f g l L H. induction l as [|i l IH]; [reflexivity|]. cbn [map]. rewrite !product_cons.
  rewrite Zmult_mod, (H i) by now left. rewrite IH by (intros; apply H; now right). now rewrite <- Zmult_mod.
Qed.
Lemma honest_eq : forall poseidon c, (forall l, in_fr (poseidon l)) -> 0 <= DeltaModL1 c -> 0 <= DeltaModL2 c -> honest_deltas c -> no_wrap poseidon c ->
  honest_R1 poseidon c = (prod_upto (users c) (fun i => (old_leaf poseidon c i + DeltaModL1 c) mod fr_modulus) * randomizers poseidon (Randomizer1 c)) mod ChallengeL1 c /\
  honest_R2 poseidon c = (prod_upto (users c) (fun i => (new_leaf poseidon c i + DeltaModL2 c) mod fr_modulus) * randomizers poseidon (Randomizer2 c)) mod ChallengeL2 c.
Proof.
  intros poseidon c HP P1 P2 [E1 E2] W. unfold honest_R1, honest_R2, prod_upto.
  assert (A : forall i, in_fr (old_leaf poseidon c i) /\ in_fr (new_leaf poseidon c i)) by (intros; split; apply HP). unfold in_fr in A.
  rewrite <- !(Zmult_mod_idemp_l (product _)).
  split; f_equal; f_equal; apply product_mod_ext; intros i Hi; apply in_seq in Hi; destruct (W i ltac:(lia)) as [W1 W2]; destruct (A i) as [A1 A2].
  - rewrite (Z.mod_small (_ + DeltaModL1 c)) by lia. rewrite E1, Zplus_mod_idemp_r. f_equal. ring.
  - rewrite (Z.mod_small (_ + DeltaModL2 c)) by lia. rewrite E2, Zplus_mod_idemp_r. f_equal. ring.
Qed.
(** what is missing: the assignments for which a leaf wraps around the field *)
Theorem C54_remainders_partial : forall poseidon mulmod c, mulmod_sound mulmod -> mulmod_complete mulmod -> (forall l, in_fr (poseidon l)) ->
  in_field c -> honest_deltas c -> satisfied poseidon mulmod c ->
  (* always: the factors are the leaves shifted by delta inside the field *)
  (RemainderR1 c = (prod_upto (users c) (fun i => (old_leaf poseidon c i + DeltaModL1 c) mod fr_modulus) * randomizers poseidon (Randomizer1 c)) mod ChallengeL1 c /\
   RemainderR2 c = (prod_upto (users c) (fun i => (new_leaf poseidon c i + DeltaModL2 c) mod fr_modulus) * randomizers poseidon (Randomizer2 c)) mod ChallengeL2 c) /\
  (no_wrap poseidon c -> RemainderR1 c = honest_R1 poseidon c /\ RemainderR2 c = honest_R2 poseidon c).
Proof.
  intros poseidon mulmod c MS MC HP HF HD H. pose proof (proj1 (circuit_meaning _ _ _ MS MC HP HF) H) as (J & E1 & E2 & _).
  split; [auto|]. intros W. destruct J as (_ & _ & _ & _ & _ & _ & _ & _ & _ & _ & _ & _ & D1 & D2).
  destruct (honest_eq poseidon c HP (proj1 D1) (proj1 D2) HD W) as [-> ->]. auto.
Qed.
Example C54_partial_case : satisfied toy_pos exact_mulmod toy_circuit /\ honest_deltas toy_circuit /\ no_wrap toy_pos toy_circuit /\
  RemainderR1 toy_circuit <> 0 /\ RemainderR1 toy_circuit <> RemainderR2 toy_circuit.
Proof.
  split; [apply C52_case|]. split; [split; reflexivity|]. split.
  { unfold no_wrap. change (users toy_circuit) with 3%nat. intros i Hi. destruct i as [|[|[|i]]]; [| | |lia]; split; vm_compute; reflexivity. }
  split; vm_compute; discriminate.
Qed.
(** with a hash value close to the modulus the remainders accepted are those of another product *)
Definition top_pos (l : list Z) : Z := fr_modulus - 1.
Definition wrapping : Circuit := completed top_pos
  {| ChallengeL1 := 5; ChallengeL2 := 5; RemainderR1 := 0; RemainderR2 := 0; CurrentEpochNum := 9;
     DeltaModL1 := 2 ^ 1023 mod 5; DeltaModL2 := 2 ^ 1023 mod 5; Randomizer1 := 5; Randomizer2 := 6; OriginalSum := 100; UpdatedSum := 0;
     UserID := [1; 2]; OriginalBalances := [10; 20]; OriginalHashes := [4; 5]; OriginalUpdEpoch := [1; 8]; UpdatedBalances := [10; 25] |}.
Lemma top_pos_fr : forall l, in_fr (top_pos l).
Proof. intros. split; [vm_compute; discriminate|reflexivity]. Qed.
Theorem C54_remainders_refuted : exists poseidon mulmod c, mulmod_sound mulmod /\ mulmod_complete mulmod /\ (forall l, in_fr (poseidon l)) /\
  in_field c /\ honest_deltas c /\ satisfied poseidon mulmod c /\ RemainderR1 c <> honest_R1 poseidon c /\ RemainderR2 c <> honest_R2 poseidon c.
Proof.
  exists top_pos, exact_mulmod, wrapping. split; [exact exact_sound|]. split; [exact exact_complete|]. split; [exact top_pos_fr|].
  assert (F : in_field wrapping) by in_field_compute. split; [exact F|]. split; [split; reflexivity|].
  split; [|split; vm_compute; discriminate].
  apply completed_satisfied; [exact exact_sound|exact exact_complete|exact top_pos_fr|exact F|].
  change (integrity wrapping).
  split; [vm_compute; lia|]. split; [repeat split|]. split.
  { change (users wrapping) with 2%nat. intros i j Hij. destruct j as [|[|j]]; destruct i as [|i]; try lia; reflexivity. }
  split. { cbn. repeat constructor; cbn; intuition lia. }
  split. { change (users wrapping) with 2%nat. intros i Hi. destruct i as [|[|i]]; [| |lia]; cbn; lia. }
  repeat split; vm_compute; congruence.
Qed.

(** *** C55 *)
(** the set GenTestSet is meant to produce: users 1, 3, 5, ..., balances, hashes and identifiers equal,
    last updated in epoch 10, remainders of the products of representatives *)
Definition test_ids (n : nat) : list Z := map (fun i => 2 * Z.of_nat i + 1) (seq 0 n).
Definition test_circuit (poseidon : list Z -> Z) (n : nat) (l1 l2 : Z) : Circuit :=
  let c0 := {| ChallengeL1 := l1; ChallengeL2 := l2; RemainderR1 := 0; RemainderR2 := 0; CurrentEpochNum := 1000000;
     DeltaModL1 := 2 ^ 1023 mod l1; DeltaModL2 := 2 ^ 1023 mod l2; Randomizer1 := 200; Randomizer2 := 300; OriginalSum := 10000; UpdatedSum := 10000;
     UserID := test_ids n; OriginalBalances := test_ids n; OriginalHashes := test_ids n; OriginalUpdEpoch := map (fun _ => 10) (test_ids n);
     UpdatedBalances := test_ids n |} in
  {| ChallengeL1 := l1; ChallengeL2 := l2; RemainderR1 := honest_R1 poseidon c0; RemainderR2 := honest_R2 poseidon c0; CurrentEpochNum := 1000000;
     DeltaModL1 := 2 ^ 1023 mod l1; DeltaModL2 := 2 ^ 1023 mod l2; Randomizer1 := 200; Randomizer2 := 300; OriginalSum := 10000; UpdatedSum := 10000;
     UserID := test_ids n; OriginalBalances := test_ids n; OriginalHashes := test_ids n; OriginalUpdEpoch := map (fun _ => 10) (test_ids n);
     UpdatedBalances := test_ids n |}.

Lemma test_ids_len : forall n, length (test_ids n) = n.
Proof. intros. unfold test_ids. now rewrite map_length, seq_length. Qed.
Lemma test_ids_nth : forall n i, (i < n)%nat -> nth i (test_ids n) 0 = 2 * Z.of_nat i + 1.
Proof.
  intros n i H. unfold test_ids. rewrite (nth_indep _ 0 (2 * Z.of_nat 0 + 1)) by now rewrite map_length, seq_length.
  rewrite (map_nth (fun i => 2 * Z.of_nat i + 1)), seq_nth by assumption. reflexivity.
Qed.
Lemma const_nth : forall (l : list Z) i, (i < length l)%nat -> nth i (map (fun _ => 10) l) 0 = 10.
Proof. induction l; intros [|i] H; cbn in *; [lia..|reflexivity|]. apply IHl. lia. Qed.
Lemma map_outcome_Ret : forall (A B : Type) (f : A -> outcome B) (g : A -> B) l, (forall a, In a l -> f a = Ret (g a)) -> map_outcome f l = Ret (map g l).
Proof.
  intros A B f g. induction l as [|a l IH]; intros H; [reflexivity|]. cbn [map_outcome map].
  rewrite (H a) by now left. cbn [bind]. rewrite IH by (intros; apply H; now right). reflexivity.
Qed.
Lemma fold_left_mul_map : forall (f : Z -> Z) l p, fold_left (fun p i => p * f i) l p = p * product (map f l).
Proof. intros f. induction l as [|x l IH]; intros p; cbn [fold_left map]; [cbn; ring|]. rewrite IH, product_cons. ring. Qed.

Lemma GenTestSet_spec : forall poseidon sha is_prime fuel n setup m, (2 <= n)%nat -> Z.of_nat n <= 2 ^ 31 ->
  (forall x, is_prime x = true -> 0 < x) ->
  GenTestSet poseidon sha is_prime fuel n setup m =
  (do (l1, t) <- GetChallengeAndAppend sha is_prime fuel (SetupTranscript setup 0 0 0 1000000);
   do (l2, _) <- GetChallengeAndAppend sha is_prime fuel t;
   let c := test_circuit poseidon n l1 l2 in
   Ret {| u_L1 := ChallengeL1 c; u_L2 := ChallengeL2 c; u_R1 := RemainderR1 c; u_R2 := RemainderR2 c; u_Epoch := CurrentEpochNum c;
          u_D1 := DeltaModL1 c; u_D2 := DeltaModL2 c; u_Rand1 := Randomizer1 c; u_Rand2 := Randomizer2 c; u_OSum := OriginalSum c; u_USum := UpdatedSum c;
          u_ID := UserID c; u_OB := OriginalBalances c; u_OH := OriginalHashes c; u_OE := OriginalUpdEpoch c; u_UB := UpdatedBalances c |}).
Proof.
  intros poseidon sha is_prime fuel n setup m H2 Hn HP. unfold GenTestSet.
  assert (EJ : map (fun i => u32 (u32 (Z.of_nat i * 2) + 1)) (seq 0 n) = test_ids n).
  { apply map_ext_in. intros i Hi. apply in_seq in Hi. assert (P : 2 ^ 32 = 2 * 2 ^ 31) by reflexivity.
    unfold u32. rewrite P. rewrite (Z.mod_small (Z.of_nat i * 2)) by lia. rewrite Z.mod_small by lia. ring. }
  rewrite EJ. clear EJ. cbv zeta.
  set (leaf j := poseidon [j; j; 10; j]). set (leaf2 j := poseidon [j; j; 1000000; leaf j]).
  assert (EM : map_outcome (fun j => do oh <- ElementFromString (dec j);
      let '(ph, rem) := PoseidonAndDIHash poseidon [ElementFromUint32 j; ElementFromUint32 j; ElementFromUint32 10; oh] in
      Ret (rem, DIHashPoseidon poseidon [ElementFromUint32 j; ElementFromUint32 j; ElementFromUint32 testEpoch; ph])) (test_ids n)
    = Ret (map (fun j => (leaf j + Min1024, leaf2 j + Min1024)) (test_ids n))).
  { apply map_outcome_Ret. intros j Hj. unfold test_ids in Hj. apply in_map_iff in Hj. destruct Hj as (i & <- & Hi). apply in_seq in Hi.
    unfold ElementFromString. rewrite set_string10_dec. cbn [bind]. unfold PoseidonAndDIHash, DIHashPoseidon, ElementFromUint32, leaf2, leaf.
    assert (F : 2 ^ 32 < fr_modulus) by reflexivity. assert (P : 2 ^ 32 = 2 * 2 ^ 31) by reflexivity.
    rewrite (Z.mod_small (2 * Z.of_nat i + 1)) by lia. reflexivity. }
  rewrite EM. clear EM. cbn [bind]. rewrite !SetProductRecursiveFast_spec. cbn [bind]. rewrite !map_map. cbn [fst snd].
  change (SetupTranscript setup _ _ _ testEpoch) with (SetupTranscript setup 0 0 0 1000000).
  unfold GetChallengeAndAppend, GetPrimeChallenge.
  destruct (FS_HashToPrime sha is_prime fuel (info (SetupTranscript setup 0 0 0 1000000)) _) as [l1| |] eqn:C1; cbn [bind]; [|reflexivity..].
  destruct (FS_HashToPrime sha is_prime fuel (info (Append (SetupTranscript setup 0 0 0 1000000) (dec l1))) _) as [l2| |] eqn:C2; cbn [bind]; [|reflexivity..].
  apply fs_prime_ret in C1. apply fs_prime_ret in C2. destruct C1 as [C1 _]. destruct C2 as [C2 _]. apply HP in C1. apply HP in C2.
  assert (GM : forall x l, 0 < l -> go_mod x l = Ret (x mod l)).
  { intros x l Hl. unfold go_mod, emod. destruct (Z.eqb_spec l 0); [lia|]. now rewrite Z.abs_eq by lia. }
  rewrite !GM by assumption. cbn [bind].
  match goal with |- (if negb (IsValid ?u) then _ else _) = _ => assert (V : IsValid u = true) end.
  { apply C51_is_valid. unfold well_formed, same_lengths. cbn [u_ID u_OB u_OH u_OE u_UB]. rewrite map_length, !test_ids_len. lia. }
  rewrite V. cbn [negb]. clear V.
  rewrite !fold_left_mul_map. cbv zeta. cbn [test_circuit ChallengeL1 ChallengeL2 RemainderR1 RemainderR2 CurrentEpochNum DeltaModL1 DeltaModL2 Randomizer1 Randomizer2 OriginalSum UpdatedSum UserID OriginalBalances OriginalHashes OriginalUpdEpoch UpdatedBalances].
  assert (PE : forall (f : Z -> Z) (g : nat -> Z), (forall i, (i < n)%nat -> f (2 * Z.of_nat i + 1) = g i) -> product (map f (test_ids n)) = prod_upto n g).
  { intros f g Hfg. unfold prod_upto, test_ids. rewrite map_map. f_equal. apply map_ext_in. intros i Hi. apply in_seq in Hi. apply Hfg. lia. }
  unfold honest_R1, honest_R2. rewrite Min1024_val.
  change (users _) with (length (test_ids n)). rewrite test_ids_len.
  f_equal. f_equal.
  - cbn [ChallengeL1 Randomizer1]. f_equal. f_equal. apply PE. intros i Hi.
    unfold old_leaf, leaf. cbn [UserID OriginalBalances OriginalHashes OriginalUpdEpoch]. rewrite test_ids_nth, const_nth by (rewrite ?test_ids_len; assumption). apply Z.add_comm.
  - cbn [ChallengeL2 Randomizer2]. f_equal. f_equal. apply PE. intros i Hi.
    unfold new_leaf, old_leaf, leaf2, leaf. cbn [UserID OriginalBalances OriginalHashes OriginalUpdEpoch UpdatedBalances CurrentEpochNum]. rewrite test_ids_nth, const_nth by (rewrite ?test_ids_len; assumption). apply Z.add_comm.
Qed.
Lemma fld_id : forall z, in_fr z -> fld z = z.
Proof. intros z H. apply Z.mod_small. exact H. Qed.
Lemma map_fld_id : forall l, Forall in_fr l -> map fld l = l.
Proof. induction 1; cbn [map]; [reflexivity|]. rewrite fld_id by assumption. now f_equal. Qed.
Lemma field_circuit_id : forall c, in_field c -> field_circuit c = c.
Proof.
  intros c (HF & F1 & F2 & F3 & F4 & F5). unfold field_circuit.
  repeat match goal with HF : Forall _ (_ :: _) |- _ => inversion HF; clear HF; subst end.
  rewrite !fld_id, !map_fld_id by assumption. destruct c; reflexivity.
Qed.
Lemma test_circuit_facts : forall poseidon n l1 l2, (2 <= n)%nat -> Z.of_nat n <= 2 ^ 31 -> 0 < l1 < fr_modulus -> 0 < l2 < fr_modulus ->
  in_field (test_circuit poseidon n l1 l2) /\ integrity (test_circuit poseidon n l1 l2).
Proof.
  intros poseidon n l1 l2 H2 Hn H1 H3. assert (P : 2 ^ 32 = 2 * 2 ^ 31) by reflexivity. assert (Q : 2 ^ 32 < fr_modulus) by reflexivity.
  assert (B : forall a l, 0 < l < fr_modulus -> 0 <= a mod l < l) by (intros a l Hl; apply Z.mod_pos_bound; lia).
  assert (B' : forall a l, 0 < l < fr_modulus -> in_fr (a mod l)) by (intros a l Hl; pose proof (B a l Hl); unfold in_fr; lia).
  assert (I : Forall in_fr (test_ids n)).
  { apply Forall_forall. intros x Hx. unfold test_ids in Hx. apply in_map_iff in Hx. destruct Hx as (i & <- & Hi). apply in_seq in Hi. unfold in_fr. lia. }
  split.
  - split.
    + cbn [test_circuit ChallengeL1 ChallengeL2 RemainderR1 RemainderR2 CurrentEpochNum DeltaModL1 DeltaModL2 Randomizer1 Randomizer2 OriginalSum UpdatedSum].
      unfold honest_R1, honest_R2. cbn [ChallengeL1 ChallengeL2].
      repeat (apply Forall_cons; [first [now apply B' | unfold in_fr; lia]|]). constructor.
    + cbn [test_circuit UserID OriginalBalances OriginalHashes OriginalUpdEpoch UpdatedBalances]. repeat (split; [assumption|]). split; [|assumption].
      apply Forall_forall. intros x Hx. apply in_map_iff in Hx. destruct Hx as (y & <- & _). unfold in_fr. lia.
  - unfold integrity, users, same_lengths. cbn [test_circuit ChallengeL1 ChallengeL2 RemainderR1 RemainderR2 CurrentEpochNum DeltaModL1 DeltaModL2 Randomizer1 Randomizer2 OriginalSum UpdatedSum UserID OriginalBalances OriginalHashes OriginalUpdEpoch UpdatedBalances].
    rewrite map_length, test_ids_len. split; [lia|]. split; [auto|]. split; [|split; [|split]].
    + intros i j Hij. rewrite !test_ids_nth by lia. lia.
    + unfold test_ids. apply FinFun.Injective_map_NoDup; [intros x y Hxy; lia|apply seq_NoDup].
    + intros i Hi. rewrite const_nth, !test_ids_nth by (rewrite ?test_ids_len; assumption). lia.
    + unfold honest_R1, honest_R2. cbn [ChallengeL1 ChallengeL2]. do 5 (split; [lia|]).
      repeat split; apply B; assumption.
Qed.

(** the set is produced whenever the two challenges are found, and its assignment satisfies the circuit
    unless one of the leaves wraps around the field; that case is what is missing *)
Theorem C55_honest_partial : forall poseidon mulmod sha is_prime fuel n setup m,
  mulmod_sound mulmod -> mulmod_complete mulmod -> (forall l, in_fr (poseidon l)) -> (forall x, is_prime x = true -> 0 < x) ->
  (2 <= n)%nat -> Z.of_nat n <= 2 ^ 31 ->
  GenTestSet poseidon sha is_prime fuel n setup m <> Panic /\
  forall u, GenTestSet poseidon sha is_prime fuel n setup m = Ret u ->
  exists c, AssignCircuit u = Ret c /\ users c = n /\ honest_deltas c /\
    RemainderR1 c = honest_R1 poseidon c /\ RemainderR2 c = honest_R2 poseidon c /\
    (no_wrap poseidon c -> satisfied poseidon mulmod (field_circuit c)).
Proof.
  intros poseidon mulmod sha is_prime fuel n setup m MS MC HP HI H2 Hn. rewrite GenTestSet_spec by assumption.
  unfold GetChallengeAndAppend, GetPrimeChallenge.
  assert (NP : forall f v l, fs_loop sha is_prime f v l <> Panic).
  { induction f; intros v l; cbn [fs_loop]; [discriminate|]. destruct (is_prime v); [discriminate|apply IHf]. }
  destruct (FS_HashToPrime sha is_prime fuel (info (SetupTranscript setup 0 0 0 1000000)) _) as [l1| |] eqn:C1; cbn [bind];
    [|exfalso; eapply NP; exact C1|split; discriminate].
  destruct (FS_HashToPrime sha is_prime fuel (info (Append (SetupTranscript setup 0 0 0 1000000) (dec l1))) _) as [l2| |] eqn:C2; cbn [bind];
    [|exfalso; eapply NP; exact C2|split; discriminate].
  split; [discriminate|]. intros u [= <-].
  apply fs_prime_ret in C1. apply fs_prime_ret in C2. destruct C1 as [C1 [s1 E1]]. destruct C2 as [C2 [s2 E2]].
  apply HI in C1. apply HI in C2.
  pose proof (wrap_max_range s1) as [R1 _]. pose proof (wrap_max_range s2) as [R2 _]. change (maxlength _) with Max252 in E1. change (maxlength _) with Max252 in E2.
  rewrite <- E1 in R1. rewrite <- E2 in R2. clear E1 E2.
  assert (L : 2 ^ 239 < fr_modulus) by reflexivity.
  destruct (test_circuit_facts poseidon n l1 l2 H2 Hn ltac:(lia) ltac:(lia)) as [F J].
  exists (test_circuit poseidon n l1 l2). set (c := test_circuit poseidon n l1 l2) in *.
  match goal with |- AssignCircuit ?u = _ /\ _ => assert (W : well_formed u) end.
  { split; cbn [u_ID u_OB u_OH u_OE u_UB]; [|exact (proj1 (proj2 J))]. change (UserID c) with (test_ids n). now rewrite test_ids_len. }
  split; [rewrite (proj2 (proj2 (C51_is_valid _)) W); reflexivity|].
  split; [apply test_ids_len|]. split; [split; reflexivity|].
  assert (HR1 : RemainderR1 c = honest_R1 poseidon c) by reflexivity. assert (HR2 : RemainderR2 c = honest_R2 poseidon c) by reflexivity.
  split; [exact HR1|]. split; [exact HR2|]. intros NW. rewrite (field_circuit_id c F).
  pose proof J as (_ & _ & _ & _ & _ & _ & _ & _ & _ & _ & _ & _ & D1 & D2).
  destruct (honest_eq poseidon c HP (proj1 D1) (proj1 D2) (conj eq_refl eq_refl) NW) as [Q1 Q2].
  apply circuit_meaning; [assumption..|]. split; [exact J|]. split; [rewrite <- Q1; exact HR1|]. split; [rewrite <- Q2; exact HR2|].
  assert (X : circuit_sum c = 10000).
  { unfold circuit_sum. change (OriginalBalances c) with (test_ids n). change (UpdatedBalances c) with (test_ids n). change (OriginalSum c) with 10000. ring. }
  rewrite X. reflexivity.
Qed.
Definition one_byte (b : Ascii.ascii) (s : string) : string := String b EmptyString.
Definition seven (x : Z) : bool := x =? 7.
Example C55_partial_case : exists u c, GenTestSet toy_pos (one_byte "007"%char) seven 5 4 {| sN := 35; sG := 2; sH := 3 |} 3 = Ret u /\
  AssignCircuit u = Ret c /\ no_wrap toy_pos c /\ users c = 4%nat.
Proof.
  eexists. eexists. split; [vm_compute; reflexivity|]. split; [vm_compute; reflexivity|]. split; [|reflexivity].
  intros i Hi. cbn in Hi. destruct i as [|[|[|[|i]]]]; [| | | |lia]; split; vm_compute; reflexivity.
Qed.

(** a hash value close to the modulus: the honest prover's assignment does not satisfy the circuit *)
Lemma prime_5 : prime 5.
Proof.
  apply prime_intro; [lia|]. intros n Hn. apply Zgcd_1_rel_prime.
  assert (C : n = 1 \/ n = 2 \/ n = 3 \/ n = 4) by lia. destruct C as [->|[->|[->| ->]]]; reflexivity.
Qed.
Definition five (x : Z) : bool := x =? 5.
Theorem C55_honest_refuted : exists poseidon sha is_prime fuel n setup m u c, (forall l, in_fr (poseidon l)) /\
  (forall x, is_prime x = true -> prime x) /\ n = 2%nat /\
  GenTestSet poseidon sha is_prime fuel n setup m = Ret u /\ AssignCircuit u = Ret c /\
  forall mulmod, mulmod_sound mulmod -> ~ satisfied poseidon mulmod (field_circuit c).
Proof.
  exists top_pos, (one_byte "005"%char), five, 5%nat, 2%nat, {| sN := 35; sG := 2; sH := 3 |}, 3. eexists. eexists.
  split; [exact top_pos_fr|]. split. { intros x Hx. apply Z.eqb_eq in Hx. subst x. exact prime_5. }
  split; [reflexivity|]. split; [vm_compute; reflexivity|]. split; [vm_compute; reflexivity|].
  intros mulmod MS H.
  match type of H with satisfied _ _ ?c => assert (F : in_field c) by in_field_compute end.
  destruct (satisfied_remainders _ _ MS _ F H) as [E _]. vm_compute in E. discriminate.
Qed.

(** *** C56: the accumulators do not enter the transcript, so swaps of different accumulators get the
    same challenges *)
Theorem C56_challenges_ignored : 
  (exists setup epoch accs accs', accs <> accs' /\
     (let '(a, b, c) := accs in SetupTranscript setup a b c epoch) = (let '(a, b, c) := accs' in SetupTranscript setup a b c epoch)) /\
  (forall sha is_prime fuel setup epoch a b c a' b' c',
     GetChallengeAndAppend sha is_prime fuel (SetupTranscript setup a b c epoch) =
     GetChallengeAndAppend sha is_prime fuel (SetupTranscript setup a' b' c' epoch)).
Proof.
  split; [|reflexivity]. exists {| sN := 35; sG := 2; sH := 3 |}, 9, (1, 2, 3), (4, 5, 6). split; [discriminate|reflexivity].
Qed.
Theorem C56_challenges_refuted : exists setup epoch a b c a' b' c', (a, b, c) <> (a', b', c') /\ forall sha is_prime fuel,
  GetChallengeAndAppend sha is_prime fuel (SetupTranscript setup a b c epoch) =
  GetChallengeAndAppend sha is_prime fuel (SetupTranscript setup a' b' c' epoch).
Proof. exists {| sN := 35; sG := 2; sH := 3 |}, 9, 1, 2, 3, 4, 5, 6. split; [discriminate|reflexivity]. Qed.
(** what is bound: the generator, the modulus and the epoch *)
Theorem C56_challenges_partial : forall setup setup' epoch epoch' a b c a' b' c',
  SetupTranscript setup a b c epoch = SetupTranscript setup' a' b' c' epoch' ->
  sG setup = sG setup' /\ sN setup = sN setup' /\ epoch = epoch'.
Proof.
  intros setup setup' epoch epoch' a b c a' b' c' H. unfold SetupTranscript, InitTranscript, Append in H. cbn [info maxlength app] in H.
  injection H as H1 H2 H3. apply dec_inj in H1. apply dec_inj in H2. apply dec_inj in H3. auto.
Qed.
Example C56_partial_case : SetupTranscript {| sN := 35; sG := 2; sH := 3 |} 1 2 3 9 <> SetupTranscript {| sN := 35; sG := 2; sH := 3 |} 1 2 3 10.
Proof. intros H. apply C56_challenges_partial in H. lia. Qed.

(** *** C57 *)
Definition components (p : PublicInfo) : list Z := [p_L1 p; p_L2 p; p_R1 p; p_R2 p; p_Epoch p; p_D1 p; p_D2 p].
Lemma public_vector_eq : forall c, public_vector c = map (fun z => z mod fr_modulus)
  [ChallengeL1 c; ChallengeL2 c; RemainderR1 c; RemainderR2 c; CurrentEpochNum c; DeltaModL1 c; DeltaModL2 c].
Proof. reflexivity. Qed.
Theorem C57_public_witness : forall u c, AssignCircuit u = Ret c ->
  (* the witness of the prover, the public part rebuilt by the verifier *)
  fst (NewWitness c) = GenPublicWitness (PublicPart u) /\
  VerifyPublicWitness (fst (NewWitness c)) (PublicPart u) = true /\
  (forall p, VerifyPublicWitness (fst (NewWitness c)) p = true <->
     Forall2 (fun x y => x mod fr_modulus = y mod fr_modulus) (components p)
       [u_L1 u; u_L2 u; u_R1 u; u_R2 u; u_Epoch u; u_D1 u; u_D2 u]).
Proof.
  intros u c H. pose proof (C51_is_valid u) as (V & A & W).
  assert (WF : well_formed u).
  { apply V. destruct (IsValid u) eqn:E; [reflexivity|]. exfalso. unfold AssignCircuit in H. rewrite E in H. discriminate. }
  rewrite (W WF) in H. injection H as <-.
  assert (E : fst (NewWitness (copied u)) = GenPublicWitness (PublicPart u)).
  { unfold NewWitness, GenPublicWitness. cbn [fst]. rewrite !public_vector_eq. reflexivity. }
  split; [exact E|]. rewrite E.
  assert (X : forall p q, VerifyPublicWitness (GenPublicWitness p) q = true <-> map (fun z => z mod fr_modulus) (components q) = map (fun z => z mod fr_modulus) (components p)).
  { intros p q. unfold VerifyPublicWitness, GenPublicWitness. rewrite !public_vector_eq. destruct (list_eq_dec Z.eq_dec _ _) as [D|D].
    - split; [intros _|reflexivity]. symmetry. exact D.
    - split; [discriminate|]. intros D'. exfalso. apply D. symmetry. exact D'. }
  split; [now apply X|]. intros p. rewrite X. cbn [components map PublicPart p_L1 p_L2 p_R1 p_R2 p_Epoch p_D1 p_D2]. split.
  - intros [= E1 E2 E3 E4 E5 E6 E7]. repeat constructor; assumption.
  - intros F. unfold components in F. repeat match goal with F : Forall2 _ (_ :: _) (_ :: _) |- _ => inversion F; clear F; subst end. cbv beta in *.
    repeat (apply (f_equal2 cons); [assumption|]). reflexivity.
Qed.
Example C57_case : exists c, AssignCircuit toy_set = Ret c /\
  VerifyPublicWitness (fst (NewWitness c)) {| p_L1 := 7; p_L2 := 11; p_R1 := 1; p_R2 := 2; p_Epoch := 9; p_D1 := 3; p_D2 := 5 |} = false /\
  VerifyPublicWitness (fst (NewWitness c)) {| p_L1 := 7; p_L2 := 11; p_R1 := 1; p_R2 := 2; p_Epoch := 9; p_D1 := 3; p_D2 := 4 + fr_modulus |} = true.
Proof. eexists. split; [vm_compute; reflexivity|]. split; vm_compute; reflexivity. Qed.

(** *** C58 *)
(** the declared order *)
Definition declared_public (c : Circuit) : list string := map (fun f => fst (fst f)) (filter (fun f => visible (snd (fst f))) (circuit_fields c)).
Definition canonical (p : PublicInfo) : Prop := Forall in_fr (components p).
Theorem C58_contract_order_refuted : exists p, canonical p /\ contract_input p <> GenPublicWitness p.
Proof.
  exists {| p_L1 := 7; p_L2 := 11; p_R1 := 1; p_R2 := 2; p_Epoch := 9; p_D1 := 3; p_D2 := 4 |}.
  split; [in_field_compute|vm_compute; discriminate].
Qed.
(** exactly when the printed vector is the public witness; the order used by the contract's own test is
    always right *)
Theorem C58_contract_order_partial : forall p, canonical p ->
  (contract_input p = GenPublicWitness p <-> p_R1 p = p_Epoch p /\ p_R2 p = p_D1 p /\ p_Epoch p = p_D2 p /\ p_D1 p = p_R1 p /\ p_D2 p = p_R2 p) /\
  contract_test_input p = GenPublicWitness p /\
  declared_public (AssignCircuitHelper p) = ["ChallengeL1"; "ChallengeL2"; "RemainderR1"; "RemainderR2"; "CurrentEpochNum"; "DeltaModL1"; "DeltaModL2"]%string.
Proof.
  intros p HC.
  assert (E : GenPublicWitness p = components p).
  { unfold GenPublicWitness. rewrite public_vector_eq. change (map fld (components p) = components p). apply map_fld_id. exact HC. }
  rewrite E. unfold components, contract_input, contract_test_input. split; [|split; reflexivity]. split.
  - intros [= E1 E2 E3 E4 E5]. auto.
  - intros (-> & -> & <- & E4 & E5). congruence.
Qed.
Example C58_partial_case : canonical {| p_L1 := 7; p_L2 := 11; p_R1 := 3; p_R2 := 3; p_Epoch := 3; p_D1 := 3; p_D2 := 3 |} /\
  contract_input {| p_L1 := 7; p_L2 := 11; p_R1 := 3; p_R2 := 3; p_Epoch := 3; p_D1 := 3; p_D2 := 3 |} = [7; 11; 3; 3; 3; 3; 3].
Proof. split; [in_field_compute|reflexivity]. Qed.

(** *** C59 *)
(** the 28-fold chain, by iteration *)
Definition chain28 (poseidon : list Z -> Z) (x : Z) : Z := Nat.iter 28 (fun h => poseidon [x; h]) (poseidon [x; x]).
Lemma merkle_chain_iter : forall poseidon d x h, merkle_chain poseidon d x h = Nat.iter d (fun h => poseidon [x; h]) h.
Proof.
  intros poseidon d x. induction d as [|d IH]; intros h; cbn [merkle_chain]; [reflexivity|]. rewrite IH.
  rewrite <- (iter_swap _ (fun h => poseidon [x; h])). reflexivity.
Qed.
Lemma MerkleDefine_spec : forall poseidon ins outs,
  (exists P, MerkleDefine poseidon ins outs = Ret P /\ P) <->
  (length ins <= length outs)%nat /\ firstn (length ins) outs = map (chain28 poseidon) ins.
Proof.
  intros poseidon. induction ins as [|x ins IH]; intros outs; cbn [MerkleDefine length firstn map].
  - split; [intros _; split; [lia|reflexivity]|]. intros _. exists True. auto.
  - destruct outs as [|o outs]; cbn [length].
    + split; [intros (P & H & _); discriminate|lia].
    + specialize (IH outs). rewrite merkle_chain_iter. fold (chain28 poseidon x). split.
      * intros (P & H & HP). destruct (MerkleDefine poseidon ins outs) as [Q| |] eqn:E; cbn [bind] in H; try discriminate.
        injection H as <-. destruct HP as [HP1 HQ]. destruct (proj1 IH ltac:(eauto)) as [L F]. split; [lia|]. cbn [firstn]. now f_equal.
      * intros [L F]. cbn [firstn] in F. injection F as F1 F2. destruct (proj2 IH ltac:(split; [lia|assumption])) as (Q & HQ & q).
        rewrite HQ. cbn [bind]. eexists. split; [reflexivity|]. split; [symmetry; exact F1|exact q].
Qed.
Theorem C59_merkle : forall poseidon,
  (* meaning of the circuit, compiled for any size *)
  (forall c, length (TestOutputs c) = length (TestInputs c) ->
     (merkle_satisfied poseidon c <-> forall i, (i < length (TestInputs c))%nat -> nth i (TestOutputs c) 0 = chain28 poseidon (nth i (TestInputs c) 0))) /\
  (* shape fixed at setup *)
  (forall size, length (TestInputs (MerkleInit size)) = size /\ length (TestOutputs (MerkleInit size)) = size /\
     length (TestInputs (MerkleAssign poseidon size)) = size /\ length (TestOutputs (MerkleAssign poseidon size)) = size) /\
  (* the assignment satisfies it *)
  (forall size, (forall l, in_fr (poseidon l)) -> Z.of_nat size <= 2 ^ 32 -> merkle_satisfied poseidon (merkle_field (MerkleAssign poseidon size))).
Proof.
  intros poseidon. split; [|split].
  - intros c HL. unfold merkle_satisfied. rewrite MerkleDefine_spec, <- HL, firstn_all. split.
    + intros [_ E] i Hi. rewrite E. rewrite (nth_indep _ 0 (chain28 poseidon 0)) by (rewrite map_length; lia). apply map_nth.
    + intros H. split; [lia|]. apply (nth_ext _ _ 0 (chain28 poseidon 0)); [now rewrite map_length|]. intros i Hi.
      rewrite map_nth. apply H. exact Hi.
  - intros size. unfold MerkleInit, MerkleAssign. cbn [TestInputs TestOutputs]. rewrite !repeat_length, !map_length, seq_length. auto.
  - intros size HP Hs. unfold merkle_satisfied. rewrite MerkleDefine_spec. unfold merkle_field, MerkleAssign. cbn [TestInputs TestOutputs].
    assert (Q : 2 ^ 32 < fr_modulus) by reflexivity.
    rewrite !map_length. split; [lia|]. rewrite map_map.
    rewrite firstn_all2 by (rewrite !map_length; lia). rewrite !map_map. apply map_ext_in. intros i Hi. apply in_seq in Hi.
    unfold ElementFromUint32, fld. rewrite (Z.mod_small (Z.of_nat i)) by lia. cbv zeta. rewrite merkle_chain_iter.
    unfold chain28. change TreeDepth with 28%nat. apply Z.mod_small. cbn [Nat.iter]. apply HP.
Qed.
Example C59_case : merkle_satisfied toy_pos (merkle_field (MerkleAssign toy_pos 3)) /\
  ~ merkle_satisfied toy_pos {| TestInputs := [1; 2]; TestOutputs := [chain28 toy_pos 1; chain28 toy_pos 1] |}.
Proof.
  split. { apply C59_merkle; [exact toy_pos_fr|cbn; lia]. }
  intros H. pose proof (proj1 (proj1 (C59_merkle toy_pos) {| TestInputs := [1; 2]; TestOutputs := [chain28 toy_pos 1; chain28 toy_pos 1] |} eq_refl) H) as H'. clear H. rename H' into H. specialize (H 1%nat ltac:(cbn; lia)). vm_compute in H. discriminate.
Qed.

(** *** C60 *)
Definition no_digit_first (s : string) : Prop := match s with EmptyString => True | String a _ => ~ is_digit a end.
Lemma app_digits : forall d1 d2 x1 x2 : string, Forall is_digit (list_ascii_of_string d1) -> Forall is_digit (list_ascii_of_string d2) ->
  no_digit_first x1 -> no_digit_first x2 -> (d1 ++ x1 = d2 ++ x2)%string -> d1 = d2 /\ x1 = x2.
Proof.
  induction d1 as [|a d1 IH]; intros d2 x1 x2 F1 F2 N1 N2 E; destruct d2 as [|b d2]; cbn in *.
  - auto.
  - exfalso. subst x1. inversion F2; subst. contradiction.
  - exfalso. subst x2. inversion F1; subst. contradiction.
  - inversion F1; subst. inversion F2; subst. injection E as -> E. destruct (IH d2 x1 x2) as [-> ->]; auto.
Qed.
Lemma uint_digits : forall d, Forall is_digit (list_ascii_of_string (DecimalString.NilEmpty.string_of_uint d)).
Proof. induction d; cbn; constructor; try assumption; unfold is_digit; cbn; lia. Qed.
Lemma dec_digits : forall z, 0 <= z -> Forall is_digit (list_ascii_of_string (dec z)).
Proof.
  intros [|q|q] Hz; [|rewrite dec_pos; apply uint_digits|lia]. change (dec 0) with "0"%string. cbn. repeat constructor; cbn; lia.
Qed.
(** suffixes used for the constraint system, the verification key and the segments of the proving key
    start with a dot; the theorem needs only that they do not start with a digit *)
Theorem C60_file_names : forall prefix prefix' size size' suffix suffix',
  In prefix [zkmultiswap_prefix; merkleswap_prefix] -> In prefix' [zkmultiswap_prefix; merkleswap_prefix] ->
  0 <= size -> 0 <= size' -> no_digit_first suffix -> no_digit_first suffix' ->
  file_name prefix size suffix = file_name prefix' size' suffix' -> prefix = prefix' /\ size = size' /\ suffix = suffix'.
Proof.
  intros prefix prefix' size size' suffix suffix' HP HP' HS HS' N N' E. unfold file_name in E.
  assert (P : prefix = prefix' /\ (dec size ++ suffix = dec size' ++ suffix')%string).
  { cbn in HP, HP'. destruct HP as [<-|[<-|[]]]; destruct HP' as [<-|[<-|[]]]; cbn in E; try discriminate; injection E as E; auto. }
  destruct P as [-> E']. split; [reflexivity|].
  destruct (app_digits _ _ _ _ (dec_digits _ HS) (dec_digits _ HS') N N' E') as [D ->]. apply dec_inj in D. auto.
Qed.
(** the two families of circuits share no file *)
Theorem C60_families : forall size size' suffix suffix', 0 <= size -> 0 <= size' -> no_digit_first suffix -> no_digit_first suffix' ->
  file_name zkmultiswap_prefix size suffix <> file_name merkleswap_prefix size' suffix'.
Proof.
  intros size size' suffix suffix' H H' N N' E. apply C60_file_names in E as (P & _ & _); auto; [discriminate P|now left|right; now left].
Qed.
Example C60_case : file_name zkmultiswap_prefix 12 ".vk.save" = "zkmultiswap_12.vk.save"%string /\ no_digit_first ".vk.save" /\ no_digit_first ".ccs.save" /\ no_digit_first "".
Proof. split; [reflexivity|]. repeat split; cbn; unfold is_digit; cbn; lia. Qed.

(** *** C64: identifiers are not limited to 32 bits, although the comment at circuit.go:56 says so (the check
    is commented out at line 60): a satisfying assignment with identifier 2^64 *)
Definition big_id : Circuit := completed toy_pos
  {| ChallengeL1 := 1000003; ChallengeL2 := 998244353; RemainderR1 := 0; RemainderR2 := 0; CurrentEpochNum := 9;
     DeltaModL1 := 2 ^ 1023 mod 1000003; DeltaModL2 := 2 ^ 1023 mod 998244353; Randomizer1 := 5; Randomizer2 := 6; OriginalSum := 100; UpdatedSum := 0;
     UserID := [1; 2 ^ 64]; OriginalBalances := [10; 20]; OriginalHashes := [4; 5]; OriginalUpdEpoch := [1; 8]; UpdatedBalances := [10; 25] |}.
Theorem C64_id_range_refuted : exists poseidon mulmod c, mulmod_sound mulmod /\ mulmod_complete mulmod /\ (forall l, in_fr (poseidon l)) /\
  in_field c /\ honest_deltas c /\ satisfied poseidon mulmod c /\ exists i, (i < users c)%nat /\ 2 ^ 32 <= nth i (UserID c) 0.
Proof.
  exists toy_pos, exact_mulmod, big_id. split; [exact exact_sound|]. split; [exact exact_complete|]. split; [exact toy_pos_fr|].
  assert (F : in_field big_id) by in_field_compute. split; [exact F|]. split; [split; reflexivity|].
  split; [|exists 1%nat; split; [cbn; lia|vm_compute; discriminate]].
  apply completed_satisfied; [exact exact_sound|exact exact_complete|exact toy_pos_fr|exact F|]. change (integrity big_id).
  split; [vm_compute; lia|]. split; [repeat split|]. split.
  { change (users big_id) with 2%nat. intros i j Hij. destruct j as [|[|j]]; destruct i as [|i]; try lia; reflexivity. }
  split. { cbn. repeat constructor; cbn; intuition lia. }
  split. { change (users big_id) with 2%nat. intros i Hi. destruct i as [|[|i]]; [| |lia]; cbn; lia. }
  repeat split; vm_compute; congruence.
Qed.
(** if the last identifier has 32 bits then all have *)
Theorem C64_id_range_partial : forall poseidon mulmod c, in_field c -> satisfied poseidon mulmod c ->
  nth (users c - 1) (UserID c) 0 < 2 ^ 32 -> forall i, (i < users c)%nat -> 0 <= nth i (UserID c) 0 < 2 ^ 32.
Proof.
  intros poseidon mulmod c HF H HL i Hi. pose proof (C52_integrity _ _ _ HF H) as (_ & _ & S & _).
  destruct HF as (_ & F & _). rewrite Forall_forall in F. specialize (F (nth i (UserID c) 0) ltac:(apply nth_In; exact Hi)). unfold in_fr in F.
  split; [lia|]. destruct (Nat.eq_dec i (users c - 1)) as [->|D]; [assumption|].
  specialize (S i (users c - 1)%nat ltac:(lia)). lia.
Qed.
Example C64_partial_case : satisfied toy_pos exact_mulmod toy_circuit /\ nth (users toy_circuit - 1) (UserID toy_circuit) 0 < 2 ^ 32.
Proof. split; [apply C52_case|reflexivity]. Qed.

Print Assumptions C51_is_valid. Print Assumptions C52_integrity. Print Assumptions circuit_meaning. Print Assumptions C53_circuit_law.
Print Assumptions C53_sum_partial. Print Assumptions C53_sum_wrong. Print Assumptions C54_remainders_partial. Print Assumptions C54_remainders_refuted.
Print Assumptions C55_honest_partial. Print Assumptions C55_honest_refuted. Print Assumptions C56_challenges_ignored. Print Assumptions C56_challenges_partial.
Print Assumptions C57_public_witness. Print Assumptions C58_contract_order_refuted. Print Assumptions C58_contract_order_partial.
Print Assumptions C59_merkle. Print Assumptions C60_file_names.
Print Assumptions C60_families. Print Assumptions C64_id_range_refuted. Print Assumptions C64_id_range_partial.
Print Assumptions C53_sum_refuted.
Print Assumptions C56_challenges_refuted.
