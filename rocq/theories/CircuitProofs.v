(** Proofs about the circuits. *)
From Coq Require Import ZArith Bool Lia String List Sorted.
From Verif Require Import GoBig GoBigFacts Spec AccModel AccFacts HashModel HashProofs FSModel FSProofs StrFacts CircuitModel.
Import ListNotations.
Open Scope Z_scope.

Lemma fr_pos : 0 < fr_modulus. Proof. reflexivity. Qed.
Definition in_fr (z : Z) : Prop := 0 <= z < fr_modulus.
Lemma fadd_fr : forall a b, in_fr (fadd a b).
Proof. intros. apply Z.mod_pos_bound, fr_pos. Qed.

(** all variables hold field elements *)
Definition in_field (c : Circuit) : Prop :=
  Forall in_fr [ChallengeL1 c; ChallengeL2 c; RemainderR1 c; RemainderR2 c; CurrentEpochNum c; DeltaModL1 c; DeltaModL2 c;
    Randomizer1 c; Randomizer2 c; OriginalSum c; UpdatedSum c] /\
  Forall in_fr (UserID c) /\ Forall in_fr (OriginalBalances c) /\ Forall in_fr (OriginalHashes c) /\
  Forall in_fr (OriginalUpdEpoch c) /\ Forall in_fr (UpdatedBalances c).

Definition row_at (ids obs ohs oes ubs : list Z) (i : nat) : row :=
  {| r_id := nth i ids 0; r_ob := nth i obs 0; r_oh := nth i ohs 0; r_oe := nth i oes 0; r_ub := nth i ubs 0 |}.
Lemma rows_of_spec : forall ids obs ohs oes ubs,
  length ids = length obs -> length ids = length ohs -> length ids = length oes -> length ids = length ubs ->
  rows_of ids obs ohs oes ubs = Ret (map (row_at ids obs ohs oes ubs) (seq 0 (length ids))).
Proof.
  induction ids as [|i ids IH]; intros [|ob obs] [|oh ohs] [|oe oes] [|ub ubs] H1 H2 H3 H4; cbn [length] in *; try discriminate.
  - reflexivity.
  - cbn [rows_of]. rewrite IH by congruence. cbn [bind seq map]. rewrite <- seq_shift, map_map. reflexivity.
Qed.
Definition rows (c : Circuit) : list row :=
  map (row_at (UserID c) (OriginalBalances c) (OriginalHashes c) (OriginalUpdEpoch c) (UpdatedBalances c)) (seq 0 (length (UserID c))).

Section Circuit.
Variable poseidon : list Z -> Z.
Variable mulmod : Z -> Z -> Z -> Z -> Prop.

Definition body (c : Circuit) : Prop :=
  ToBinary (Randomizer1 c) BitLength /\ ToBinary (Randomizer2 c) BitLength /\
  AssertIsLess (DeltaModL1 c) (ChallengeL1 c) /\ AssertIsLess (DeltaModL2 c) (ChallengeL2 c) /\
  AssertIsLess (RemainderR1 c) (ChallengeL1 c) /\ AssertIsLess (RemainderR2 c) (ChallengeL2 c) /\
  ToBinary (CurrentEpochNum c) BitLength /\ ToBinary (OriginalSum c) BitLength /\ ToBinary (UpdatedSum c) BitLength /\
  increasing_ids (rows c) /\ ranges (CurrentEpochNum c) (rows c) /\
  exists rem1 rem2 tempSum rem1' rem2',
    user_loop poseidon mulmod c (rows c) 1 1 (fadd (fsub (OriginalSum c) (nth 0 (OriginalBalances c) 0)) (nth 0 (UpdatedBalances c) 0)) rem1 rem2 tempSum /\
    randomizer_loop poseidon mulmod c eight rem1 rem2 rem1' rem2' /\
    rem1' = RemainderR1 c /\ rem2' = RemainderR2 c /\ tempSum = UpdatedSum c.
Definition shape (c : Circuit) : Prop :=
  (1 <= length (UserID c))%nat /\
  length (UserID c) = length (OriginalBalances c) /\ length (UserID c) = length (OriginalHashes c) /\
  length (UserID c) = length (OriginalUpdEpoch c) /\ length (UserID c) = length (UpdatedBalances c).
Lemma rows_of_long : forall ids obs ohs oes ubs l, rows_of ids obs ohs oes ubs = Ret l -> (length ids <= length obs)%nat.
Proof.
  induction ids as [|i ids IH]; intros [|ob obs] [|oh ohs] [|oe oes] [|ub ubs] l H; cbn in *; try discriminate; try lia.
  destruct (rows_of ids obs ohs oes ubs) eqn:E; cbn in H; try discriminate. apply IH in E. lia.
Qed.
Lemma satisfied_iff : forall c, satisfied poseidon mulmod c <-> shape c /\ body c.
Proof.
  intros c. unfold satisfied, Define. split.
  - intros (P & H & HP). destruct (rows_of _ _ _ _ _) as [l| |] eqn:E; cbn [bind] in H; try discriminate.
    destruct (go_index (OriginalBalances c) 0) as [ob0| |] eqn:E1; cbn [bind] in H; try discriminate.
    destruct (go_index (UpdatedBalances c) 0) as [ub0| |] eqn:E2; cbn [bind] in H; try discriminate.
    injection H as <-. destruct HP as (H1 & H2 & H3 & H4 & H5 & H6 & H7 & H8 & H9).
    assert (S : shape c).
    { split; [|auto]. destruct (OriginalBalances c); [discriminate|]. cbn in H5. lia. }
    split; [exact S|]. rewrite rows_of_spec in E by assumption. injection E as <-.
    assert (X1 : ob0 = nth 0 (OriginalBalances c) 0) by (destruct (OriginalBalances c); [discriminate|]; cbn in *; congruence).
    assert (X2 : ub0 = nth 0 (UpdatedBalances c) 0) by (destruct (UpdatedBalances c); [discriminate|]; cbn in *; congruence).
    rewrite X1, X2 in H9. unfold body, rows. tauto.
  - intros ((S0 & S1 & S2 & S3 & S4) & B). rewrite rows_of_spec by assumption. cbn [bind]. fold (rows c).
    destruct (OriginalBalances c) as [|ob0 obs] eqn:EO; [cbn in S1; lia|].
    destruct (UpdatedBalances c) as [|ub0 ubs] eqn:EU; [cbn in S4; lia|]. cbn [go_index nth_error bind].
    eexists. split; [reflexivity|]. unfold body in B. rewrite EO, EU in B. cbn [nth] in B. rewrite S4, <- S1, <- S2, <- S3, <- S4. tauto.
Qed.

(** ** values of the loops *)
Definition h_removed (r : row) : Z := poseidon [r_id r; r_ob r; r_oe r; r_oh r].
Definition h_inserted (c : Circuit) (r : row) : Z := poseidon [r_id r; r_ub r; CurrentEpochNum c; h_removed r].
Definition f1 (c : Circuit) (r : row) : Z := fadd (h_removed r) (DeltaModL1 c).
Definition f2 (c : Circuit) (r : row) : Z := fadd (h_inserted c r) (DeltaModL2 c).
Definition rho1 (c : Circuit) (i : Z) : Z := poseidon [Randomizer1 c; i].
Definition rho2 (c : Circuit) (i : Z) : Z := poseidon [Randomizer2 c; i].

Definition mulmod_sound : Prop := forall a b p r, mulmod a b p r -> exists k, a * b = k * p + r.
Definition mulmod_complete : Prop := forall a b p, in_fr a -> in_fr b -> 0 < p < fr_modulus -> mulmod a b p ((a * b) mod p).

Lemma congr_mod : forall a b p r k, 0 < p -> a * b = k * p + r -> (a * b) mod p = r mod p.
Proof. intros a b p r k Hp ->. rewrite Z.add_comm. apply Z.mod_add. lia. Qed.

Lemma user_loop_mods : mulmod_sound -> forall c l m1 m2 s m1' m2' s', 0 < ChallengeL1 c -> 0 < ChallengeL2 c ->
  user_loop poseidon mulmod c l m1 m2 s m1' m2' s' ->
  m1' mod ChallengeL1 c = (m1 * product (map (f1 c) l)) mod ChallengeL1 c /\
  m2' mod ChallengeL2 c = (m2 * product (map (f2 c) l)) mod ChallengeL2 c.
Proof.
  intros MS c. induction l as [|r l IH]; intros m1 m2 s m1' m2' s' H1 H2 H; cbn [user_loop] in H.
  - destruct H as (-> & -> & _). cbn. now rewrite !Z.mul_1_r.
  - destruct H as (n1 & n2 & M1 & M2 & H). destruct (MS _ _ _ _ M1) as [k1 E1]. destruct (MS _ _ _ _ M2) as [k2 E2].
    apply IH in H; [|assumption|assumption]. destruct H as [-> ->]. cbn [map]. rewrite !product_cons, !Z.mul_assoc.
    apply congr_mod in E1; [|assumption]. apply congr_mod in E2; [|assumption].
    fold (h_removed r) in E1, E2. fold (h_inserted c r) in E2. fold (f1 c r) in E1. fold (f2 c r) in E2.
    split.
    + rewrite <- (mul_mod_idem_l n1), <- E1, mul_mod_idem_l. reflexivity.
    + rewrite <- (mul_mod_idem_l n2), <- E2, mul_mod_idem_l. reflexivity.
Qed.
Lemma user_loop_sum : forall c l m1 m2 s m1' m2' s',
  user_loop poseidon mulmod c l m1 m2 s m1' m2' s' ->
  s' mod fr_modulus = (s + sum_list (map (fun r => r_ub r - r_ob r) l)) mod fr_modulus /\ (in_fr s -> in_fr s').
Proof.
  intros c. induction l as [|r l IH]; intros m1 m2 s m1' m2' s' H; cbn [user_loop] in H.
  - destruct H as (_ & _ & ->). cbn [map sum_list fold_right]. rewrite Z.add_0_r. auto.
  - destruct H as (n1 & n2 & _ & _ & H). apply IH in H. destruct H as [E F]. split.
    + rewrite E. cbn [map sum_list fold_right]. unfold fadd, fsub. rewrite Z.add_mod_idemp_l by discriminate.
      replace (s + (r_ub r - r_ob r + fold_right Z.add 0 (map (fun r0 : row => r_ub r0 - r_ob r0) l)))
        with (s - r_ob r + (r_ub r + sum_list (map (fun r0 : row => r_ub r0 - r_ob r0) l))) by (unfold sum_list; ring).
      rewrite <- (Z.add_mod_idemp_l (s - r_ob r)) by discriminate. f_equal. ring.
    + intros _. apply F, fadd_fr.
Qed.
Lemma randomizer_loop_mods : mulmod_sound -> forall c l m1 m2 m1' m2', 0 < ChallengeL1 c -> 0 < ChallengeL2 c ->
  randomizer_loop poseidon mulmod c l m1 m2 m1' m2' ->
  m1' mod ChallengeL1 c = (m1 * product (map (rho1 c) l)) mod ChallengeL1 c /\
  m2' mod ChallengeL2 c = (m2 * product (map (rho2 c) l)) mod ChallengeL2 c.
Proof.
  intros MS c. induction l as [|i l IH]; intros m1 m2 m1' m2' H1 H2 H; cbn [randomizer_loop] in H.
  - destruct H as (-> & ->). cbn. now rewrite !Z.mul_1_r.
  - destruct H as (n1 & n2 & M1 & M2 & H). destruct (MS _ _ _ _ M1) as [k1 E1]. destruct (MS _ _ _ _ M2) as [k2 E2].
    apply IH in H; [|assumption|assumption]. destruct H as [-> ->]. cbn [map]. rewrite !product_cons, !Z.mul_assoc.
    apply congr_mod in E1; [|assumption]. apply congr_mod in E2; [|assumption].
    fold (rho1 c i) in E1. fold (rho2 c i) in E2. split.
    + rewrite <- (mul_mod_idem_l n1), <- E1, mul_mod_idem_l. reflexivity.
    + rewrite <- (mul_mod_idem_l n2), <- E2, mul_mod_idem_l. reflexivity.
Qed.

(** ** running the loops forwards *)
Definition chain (L : Z) (hs : list Z) (m : Z) : Z := fold_left (fun m h => (m * h) mod L) hs m.
Lemma chain_range : forall L hs m, 0 < L -> hs <> [] -> 0 <= chain L hs m < L.
Proof.
  intros L hs m HL. revert m. induction hs as [|h hs IH]; intros m Hn; [congruence|]. cbn [chain fold_left].
  destruct hs; [cbn; now apply Z.mod_pos_bound|]. apply IH. discriminate.
Qed.
Lemma chain_spec : forall L hs m, 0 < L -> chain L hs m mod L = (m * product hs) mod L.
Proof.
  intros L hs. induction hs as [|h hs IH]; intros m HL; cbn [chain fold_left].
  - cbn. now rewrite Z.mul_1_r.
  - rewrite product_cons, Z.mul_assoc. unfold chain in IH. rewrite IH by assumption. now rewrite mul_mod_idem_l.
Qed.
Lemma chain_fr : forall L hs m, 0 < L < fr_modulus -> in_fr m -> in_fr (chain L hs m).
Proof.
  intros L hs. induction hs as [|h hs IH]; intros m HL Hm; cbn [chain fold_left]; [assumption|].
  apply IH; [assumption|]. pose proof (Z.mod_pos_bound (m * h) L). unfold in_fr. lia.
Qed.
Definition sums (l : list row) (s : Z) : Z := fold_left (fun s r => fadd (fsub s (r_ob r)) (r_ub r)) l s.
Lemma user_loop_run : mulmod_complete -> (forall l, in_fr (poseidon l)) -> forall c l m1 m2 s,
  0 < ChallengeL1 c < fr_modulus -> 0 < ChallengeL2 c < fr_modulus -> in_fr m1 -> in_fr m2 ->
  user_loop poseidon mulmod c l m1 m2 s (chain (ChallengeL1 c) (map (f1 c) l) m1) (chain (ChallengeL2 c) (map (f2 c) l) m2) (sums l s).
Proof.
  intros MC HP c. induction l as [|r l IH]; intros m1 m2 s H1 H2 I1 I2; cbn [user_loop map chain fold_left sums].
  - auto.
  - exists ((m1 * f1 c r) mod ChallengeL1 c), ((m2 * f2 c r) mod ChallengeL2 c).
    assert (B : forall a L, 0 < L < fr_modulus -> in_fr (a mod L)).
    { intros a L HL. pose proof (Z.mod_pos_bound a L). unfold in_fr. lia. }
    split; [apply MC; auto; apply fadd_fr|]. split; [apply MC; auto; apply fadd_fr|]. apply IH; auto.
Qed.
Lemma randomizer_loop_run : mulmod_complete -> (forall l, in_fr (poseidon l)) -> forall c l m1 m2,
  0 < ChallengeL1 c < fr_modulus -> 0 < ChallengeL2 c < fr_modulus -> in_fr m1 -> in_fr m2 ->
  randomizer_loop poseidon mulmod c l m1 m2 (chain (ChallengeL1 c) (map (rho1 c) l) m1) (chain (ChallengeL2 c) (map (rho2 c) l) m2).
Proof.
  intros MC HP c. induction l as [|r l IH]; intros m1 m2 H1 H2 I1 I2; cbn [randomizer_loop map chain fold_left].
  - auto.
  - exists ((m1 * rho1 c r) mod ChallengeL1 c), ((m2 * rho2 c r) mod ChallengeL2 c).
    assert (B : forall a L, 0 < L < fr_modulus -> in_fr (a mod L)).
    { intros a L HL. pose proof (Z.mod_pos_bound a L). unfold in_fr. lia. }
    split; [apply MC; auto; apply HP|]. split; [apply MC; auto; apply HP|]. apply IH; auto.
Qed.
Lemma chain_app : forall L a b m, chain L b (chain L a m) = chain L (a ++ b) m.
Proof. intros. unfold chain. now rewrite fold_left_app. Qed.

(** ** exact remainders *)
Lemma satisfied_remainders : mulmod_sound -> forall c, in_field c -> satisfied poseidon mulmod c ->
  RemainderR1 c = product (map (f1 c) (rows c) ++ map (rho1 c) eight) mod ChallengeL1 c /\
  RemainderR2 c = product (map (f2 c) (rows c) ++ map (rho2 c) eight) mod ChallengeL2 c.
Proof.
  intros MS c [HF _] H. apply satisfied_iff in H. destruct H as [_ (_ & _ & D1 & D2 & R1 & R2 & _ & _ & _ & _ & _ & E)].
  destruct E as (m1 & m2 & s & n1 & n2 & U & V & -> & -> & _). unfold AssertIsLess in *.
  repeat match goal with HF : Forall _ (_ :: _) |- _ => inversion HF; clear HF; subst end. unfold in_fr in *.
  assert (P1 : 0 < ChallengeL1 c) by lia. assert (P2 : 0 < ChallengeL2 c) by lia.
  apply (user_loop_mods MS) in U; [|assumption|assumption]. apply (randomizer_loop_mods MS) in V; [|assumption|assumption].
  destruct U as [U1 U2]. destruct V as [V1 V2]. rewrite !Z.mul_1_l in *. rewrite !product_app.
  rewrite <- (mul_mod_idem_l m1), U1, mul_mod_idem_l, Z.mod_small in V1 by lia.
  rewrite <- (mul_mod_idem_l m2), U2, mul_mod_idem_l, Z.mod_small in V2 by lia. auto.
Qed.
(** ** assignments can be completed by the right remainders *)
Lemma complete_assignment : mulmod_complete -> (forall l, in_fr (poseidon l)) -> forall c, shape c ->
  0 < ChallengeL1 c < fr_modulus -> 0 < ChallengeL2 c < fr_modulus ->
  ToBinary (Randomizer1 c) BitLength -> ToBinary (Randomizer2 c) BitLength ->
  DeltaModL1 c < ChallengeL1 c -> DeltaModL2 c < ChallengeL2 c ->
  ToBinary (CurrentEpochNum c) BitLength -> ToBinary (OriginalSum c) BitLength -> ToBinary (UpdatedSum c) BitLength ->
  increasing_ids (rows c) -> ranges (CurrentEpochNum c) (rows c) ->
  RemainderR1 c = product (map (f1 c) (rows c) ++ map (rho1 c) eight) mod ChallengeL1 c ->
  RemainderR2 c = product (map (f2 c) (rows c) ++ map (rho2 c) eight) mod ChallengeL2 c ->
  UpdatedSum c = sums (rows c) (fadd (fsub (OriginalSum c) (nth 0 (OriginalBalances c) 0)) (nth 0 (UpdatedBalances c) 0)) ->
  satisfied poseidon mulmod c.
Proof.
  intros MC HP c S P1 P2 B1 B2 D1 D2 B3 B4 B5 I G R1 R2 E. apply satisfied_iff. split; [exact S|].
  assert (I1 : in_fr 1) by (split; [lia|reflexivity]).
  repeat (split; [assumption|]).
  split; [unfold AssertIsLess; rewrite R1; apply Z.mod_pos_bound; lia|].
  split; [unfold AssertIsLess; rewrite R2; apply Z.mod_pos_bound; lia|].
  repeat (split; [assumption|]).
  do 5 eexists. split; [apply (user_loop_run MC HP c _ 1 1); assumption|].
  split; [apply (randomizer_loop_run MC HP); try assumption; apply chain_fr; assumption|].
  assert (X : forall L a b, 0 < L -> b <> [] -> chain L b (chain L a 1) = product (a ++ b) mod L).
  { intros L a b HL Hb. rewrite chain_app. rewrite <- (Z.mod_small (chain L (a ++ b) 1) L).
    - rewrite chain_spec, Z.mul_1_l by assumption. reflexivity.
    - apply chain_range; [assumption|]. destruct a; [assumption|discriminate]. }
  rewrite !X, R1, R2, E by (lia || discriminate). auto.
Qed.
End Circuit.

(** ** integer sums *)
Lemma sums_mod : forall l s, sums l s mod fr_modulus = (s + sum_list (map (fun r => r_ub r - r_ob r) l)) mod fr_modulus /\
  (in_fr s -> in_fr (sums l s)).
Proof.
  induction l as [|r l IH]; intros s; cbn [sums fold_left map sum_list fold_right].
  - rewrite Z.add_0_r. auto.
  - destruct (IH (fadd (fsub s (r_ob r)) (r_ub r))) as [E F]. unfold sums in *. split.
    + rewrite E. unfold fadd, fsub. rewrite Z.add_mod_idemp_l by discriminate.
      replace (s + (r_ub r - r_ob r + fold_right Z.add 0 (map (fun r0 : row => r_ub r0 - r_ob r0) l)))
        with (s - r_ob r + (r_ub r + sum_list (map (fun r0 : row => r_ub r0 - r_ob r0) l))) by (unfold sum_list; ring).
      rewrite <- (Z.add_mod_idemp_l (s - r_ob r)) by discriminate. f_equal. ring.
    + intros _. apply F, fadd_fr.
Qed.
Lemma sum_map_sub : forall A (f g : A -> Z) l, sum_list (map (fun r => f r - g r) l) = sum_list (map f l) - sum_list (map g l).
Proof. intros A f g. unfold sum_list. induction l as [|r l IH]; cbn; lia. Qed.
Lemma sum_bound : forall l B, Forall (fun x => 0 <= x <= B) l -> 0 <= sum_list l <= B * Z.of_nat (length l).
Proof.
  intros l B H. unfold sum_list. induction H as [|x l Hx H IH]; cbn [fold_right length]; [lia|].
  rewrite Nat2Z.inj_succ, Z.mul_succ_r. lia.
Qed.
Lemma map_nth_seq : forall (l : list Z), map (fun i => nth i l 0) (seq 0 (length l)) = l.
Proof.
  induction l as [|x l IH]; [reflexivity|]. cbn [length seq map nth]. f_equal. rewrite <- seq_shift, map_map. exact IH.
Qed.
Lemma rows_map : forall c, shape c ->
  map r_id (rows c) = UserID c /\ map r_ob (rows c) = OriginalBalances c /\ map r_oe (rows c) = OriginalUpdEpoch c /\
  map r_ub (rows c) = UpdatedBalances c /\ map r_oh (rows c) = OriginalHashes c.
Proof.
  intros c (S0 & S1 & S2 & S3 & S4). unfold rows. rewrite !map_map. cbn [row_at r_id r_ob r_oe r_ub r_oh].
  split; [apply map_nth_seq|]. split; [rewrite S1; apply map_nth_seq|]. split; [rewrite S3; apply map_nth_seq|].
  split; [rewrite S4; apply map_nth_seq|rewrite S2; apply map_nth_seq].
Qed.
Lemma increasing_sorted : forall l, increasing_ids l -> StronglySorted Z.lt (map r_id l).
Proof.
  intros l H. apply Sorted_StronglySorted; [exact Z.lt_trans|].
  induction l as [|a l IH]; [constructor|]. cbn [map]. destruct l as [|b l]; [repeat constructor|].
  destruct H as [H1 H2]. constructor; [now apply IH|]. cbn. constructor. exact H1.
Qed.
Lemma sorted_increasing : forall l, Sorted Z.lt (map r_id l) -> increasing_ids l.
Proof.
  induction l as [|a l IH]; intros H; [exact I|]. destruct l as [|b l]; [exact I|]. cbn [map] in *.
  inversion H as [|? ? H1 H2]; subst. inversion H2; subst. split; [assumption|]. apply IH. exact H1.
Qed.
