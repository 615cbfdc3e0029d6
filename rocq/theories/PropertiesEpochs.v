(** Theorems for properties C104-C106: what swap proofs say about the liabilities, and about several epochs.

    poseidon and mulmod are as in PropertiesCircuit. No collision of poseidon is excluded by assumption; where one would be needed the
    theorem names it. *)
From Coq Require Import ZArith Znumtheory Bool Lia Ascii String List Sorted.
From Verif Require Import GoBig GoBigFacts Spec AccModel AccFacts StrFacts HashModel HashProofs FSModel FSProofs CircuitModel CircuitProofs
  PropertiesCircuit KeysModel PropertiesKeys.
Import ListNotations.
Open Scope Z_scope.

(** ** C104 *)
(** *** Specification *)
Definition with_sums (c : Circuit) (os us : Z) : Circuit :=
  {| ChallengeL1 := ChallengeL1 c; ChallengeL2 := ChallengeL2 c; RemainderR1 := RemainderR1 c; RemainderR2 := RemainderR2 c;
     CurrentEpochNum := CurrentEpochNum c; DeltaModL1 := DeltaModL1 c; DeltaModL2 := DeltaModL2 c; Randomizer1 := Randomizer1 c;
     Randomizer2 := Randomizer2 c; OriginalSum := os; UpdatedSum := us; UserID := UserID c;
     OriginalBalances := OriginalBalances c; OriginalHashes := OriginalHashes c; OriginalUpdEpoch := OriginalUpdEpoch c;
     UpdatedBalances := UpdatedBalances c |}.
(** the change of the sum that the circuit enforces (C53) *)
Definition enforced_change (c : Circuit) : Z :=
  sum_list (UpdatedBalances c) - sum_list (OriginalBalances c) + (nth 0 (UpdatedBalances c) 0 - nth 0 (OriginalBalances c) 0).
Definition bits32 (z : Z) : Prop := 0 <= z < 2 ^ 32.

Ltac fields_in H := cbn [with_sums OriginalSum UpdatedSum OriginalBalances UpdatedBalances] in H.
Lemma bits32_fr : forall z, bits32 z -> in_fr z.
Proof. intros z H. assert (2 ^ 32 < fr_modulus) by reflexivity. unfold bits32, in_fr in *. lia. Qed.
Lemma with_sums_field : forall c os us, in_field c -> in_fr os -> in_fr us -> in_field (with_sums c os us).
Proof.
  intros c os us (F & R) Ho Hu. split; [|exact R]. cbn.
  repeat match goal with F : Forall _ (_ :: _) |- _ => inversion F; clear F; subst end.
  repeat (apply Forall_cons; [assumption|]). apply Forall_nil.
Qed.
Lemma with_sums_integrity : forall c os us os' us', integrity (with_sums c os us) -> bits32 os' -> bits32 us' -> integrity (with_sums c os' us').
Proof. intros c os us os' us' J Ho Hu. unfold integrity, bits32, users in *. cbn in *. tauto. Qed.
Lemma with_sums_public : forall c os us, public_vector (with_sums c os us) = public_vector c.
Proof. intros [] os us. unfold public_vector, collect. apply (f_equal (map (fun z => z mod fr_modulus))). vm_compute. reflexivity. Qed.
Lemma with_sums_id : forall c, with_sums c (OriginalSum c) (UpdatedSum c) = c.
Proof. intros []. reflexivity. Qed.

(** The sums are known to the prover only, and no hash contains them: exactly the pairs of 32-bit sums with the same
    difference go through, with the same public values and the same users. *)
Theorem C104_sums_partial : forall poseidon mulmod c, mulmod_sound mulmod -> mulmod_complete mulmod -> (forall l, in_fr (poseidon l)) ->
  in_field c -> Z.of_nat (users c) < 2 ^ 200 -> satisfied poseidon mulmod c ->
  forall os us, in_fr os -> in_fr us ->
  (satisfied poseidon mulmod (with_sums c os us) <-> bits32 os /\ bits32 us /\ us - os = UpdatedSum c - OriginalSum c) /\
  public_vector (with_sums c os us) = public_vector c.
Proof.
  intros poseidon mulmod c MS MC HP HF Hn S os us Ho Hu. split; [|apply with_sums_public].
  pose proof (with_sums_field c os us HF Ho Hu) as HF'. pose proof (C53_circuit_law _ _ _ HF S Hn) as L. split.
  - intros S'. pose proof (C53_circuit_law _ _ _ HF' S' Hn) as L'. fields_in L'.
    pose proof (C52_integrity _ _ _ HF' S') as (_ & _ & _ & _ & _ & _ & B1 & B2 & _). fields_in B1. fields_in B2. unfold bits32. lia.
  - intros (B1 & B2 & D). apply (circuit_meaning _ _ _ MS MC HP HF) in S. destruct S as (J & R1 & R2 & _).
    apply circuit_meaning; [assumption..|]. split.
    { apply (with_sums_integrity c (OriginalSum c) (UpdatedSum c)); [rewrite with_sums_id; exact J|assumption..]. }
    split; [exact R1|]. split; [exact R2|]. cbn [UpdatedSum with_sums].
    replace (circuit_sum (with_sums c os us)) with us; [symmetry; apply Z.mod_small; exact Hu|]. unfold circuit_sum. cbn [with_sums OriginalSum UpdatedSum OriginalBalances UpdatedBalances]. lia.
Qed.
(** Whether any sums go through depends on the change alone. *)
Theorem C104_some_sums : forall poseidon mulmod c, mulmod_sound mulmod -> mulmod_complete mulmod -> (forall l, in_fr (poseidon l)) ->
  in_field c -> Z.of_nat (users c) < 2 ^ 200 ->
  ((exists os us, in_fr os /\ in_fr us /\ satisfied poseidon mulmod (with_sums c os us)) <->
   integrity (with_sums c 0 0) /\
   RemainderR1 c = (prod_upto (users c) (fun i => (old_leaf poseidon c i + DeltaModL1 c) mod fr_modulus) * randomizers poseidon (Randomizer1 c)) mod ChallengeL1 c /\
   RemainderR2 c = (prod_upto (users c) (fun i => (new_leaf poseidon c i + DeltaModL2 c) mod fr_modulus) * randomizers poseidon (Randomizer2 c)) mod ChallengeL2 c /\
   - 2 ^ 32 < enforced_change c < 2 ^ 32).
Proof.
  intros poseidon mulmod c MS MC HP HF Hn. assert (B0 : bits32 0) by (unfold bits32; lia). split.
  - intros (os & us & Ho & Hu & S). pose proof (with_sums_field c os us HF Ho Hu) as HF'. pose proof (C53_circuit_law _ _ _ HF' S Hn) as L. fields_in L.
    apply (circuit_meaning _ _ _ MS MC HP HF') in S. destruct S as (J & R1 & R2 & _). split; [exact (with_sums_integrity _ _ _ _ _ J B0 B0)|].
    split; [exact R1|]. split; [exact R2|]. destruct J as (_ & _ & _ & _ & _ & _ & B1 & B2 & _). fields_in B1. fields_in B2. unfold enforced_change. lia.
  - intros (J & R1 & R2 & B). set (os := Z.max 0 (- enforced_change c)). set (us := os + enforced_change c).
    assert (Bo : bits32 os) by (unfold bits32; lia). assert (Bu : bits32 us) by (unfold bits32; lia).
    exists os, us. split; [now apply bits32_fr|]. split; [now apply bits32_fr|].
    apply circuit_meaning; [assumption..|apply with_sums_field; [assumption|now apply bits32_fr..]|]. split; [exact (with_sums_integrity _ _ _ _ _ J Bo Bu)|].
    split; [exact R1|]. split; [exact R2|]. cbn [UpdatedSum with_sums].
    replace (circuit_sum (with_sums c os us)) with us; [symmetry; apply Z.mod_small; now apply bits32_fr|]. unfold us, enforced_change, circuit_sum. cbn [with_sums OriginalSum UpdatedSum OriginalBalances UpdatedBalances]. lia.
Qed.
(** Verify cannot tell: the proof for a set with the sums moved is accepted for the public part of the original set. *)
Definition move_sums (u : UpdateSet32) (d : Z) : UpdateSet32 :=
  {| u_L1 := u_L1 u; u_L2 := u_L2 u; u_R1 := u_R1 u; u_R2 := u_R2 u; u_Epoch := u_Epoch u; u_D1 := u_D1 u; u_D2 := u_D2 u; u_Rand1 := u_Rand1 u;
     u_Rand2 := u_Rand2 u; u_OSum := u_OSum u + d; u_USum := u_USum u + d; u_ID := u_ID u; u_OB := u_OB u; u_OH := u_OH u; u_OE := u_OE u; u_UB := u_UB u |}.
Lemma field_small : forall c, in_field (field_circuit c).
Proof.
  intros c. assert (X : forall z, in_fr (fld z)) by (intros; apply Z.mod_pos_bound; reflexivity).
  assert (Y : forall l, Forall in_fr (map fld l)) by (intros; apply Forall_forall; intros z Hz; apply in_map_iff in Hz; destruct Hz as (y & <- & _); apply X).
  unfold in_field. cbn [field_circuit ChallengeL1 ChallengeL2 RemainderR1 RemainderR2 CurrentEpochNum DeltaModL1 DeltaModL2 Randomizer1 Randomizer2
    OriginalSum UpdatedSum UserID OriginalBalances OriginalHashes OriginalUpdEpoch UpdatedBalances]. split; [repeat (apply Forall_cons; [apply X|]); apply Forall_nil|]. auto 10.
Qed.
Theorem C104_verifier : forall (pkey vkey proof : Type) g_setup g_proof g_verify sat poseidon mulmod,
  @ideal pkey vkey proof g_setup g_proof g_verify sat -> sat_ok poseidon mulmod sat ->
  mulmod_sound mulmod -> mulmod_complete mulmod -> (forall l, in_fr (poseidon l)) ->
  forall l u d r s, sizes_ok l -> well_formed u -> Z.of_nat (length (u_ID u)) < 2 ^ 200 ->
  satisfied poseidon mulmod (field_circuit (copied u)) ->
  bits32 (u_OSum u) -> bits32 (u_USum u) -> bits32 (u_OSum u + d) -> bits32 (u_USum u + d) ->
  last_setup l MultiSwap (Z.of_nat (length (u_ID u))) = Some s ->
  exists p, Prove pkey vkey proof g_proof sat (history pkey vkey g_setup l) (move_sums u d) r = Ret (Some p) /\
    Verify pkey vkey proof g_verify (history pkey vkey g_setup l) p (Z.of_nat (length (u_ID u))) (PublicPart u) = Ret true.
Proof.
  intros pkey vkey proof g_setup g_proof g_verify sat poseidon mulmod ID SO MS MC HP l u d r s HL W Hn S B1 B2 B3 B4 HS.
  destruct (C83_prove_verify _ _ _ g_setup g_proof g_verify sat poseidon mulmod ID SO l (move_sums u d) r s HL W HS) as (p & P & V).
  exists p. split; [exact P|]. specialize (V [] (Z.of_nat (length (u_ID u))) (PublicPart u) ltac:(constructor) ltac:(lia)). rewrite app_nil_r in V. apply V.
  split; [reflexivity|]. split; [repeat constructor|]. split; [|exact HS].
  replace (field_circuit (copied (move_sums u d))) with (with_sums (field_circuit (copied u)) (fld (u_OSum u + d)) (fld (u_USum u + d))) by reflexivity.
  assert (Fl : forall z, bits32 z -> fld z = z) by (intros z Hz; apply Z.mod_small; now apply bits32_fr). rewrite !Fl by assumption.
  apply (C104_sums_partial poseidon mulmod (field_circuit (copied u)) MS MC HP (field_small _)); [|exact S|now apply bits32_fr|now apply bits32_fr|].
  - unfold users. cbn [field_circuit copied UserID]. rewrite map_length. exact Hn.
  - split; [assumption|]. split; [assumption|]. cbn [field_circuit copied UpdatedSum OriginalSum]. rewrite !Fl by assumption. lia.
Qed.
(** Full statement: the public values and the users fix both sums. Refuted. *)
Theorem C104_sums_refuted : exists poseidon mulmod c os us, mulmod_sound mulmod /\ mulmod_complete mulmod /\ (forall l, in_fr (poseidon l)) /\
  in_field c /\ in_field (with_sums c os us) /\ satisfied poseidon mulmod c /\ satisfied poseidon mulmod (with_sums c os us) /\
  public_vector (with_sums c os us) = public_vector c /\ os <> OriginalSum c /\ us <> UpdatedSum c.
Proof.
  assert (I : in_fr 4000000020 /\ in_fr 4000000000) by (split; split; vm_compute; congruence).
  exists toy_pos, exact_mulmod, toy_circuit, 4000000020, 4000000000. split; [exact exact_sound|]. split; [exact exact_complete|]. split; [exact toy_pos_fr|].
  split; [exact toy_in_field|]. split; [apply with_sums_field; [exact toy_in_field|apply I|apply I]|]. split; [apply C52_case|].
  destruct (C104_sums_partial toy_pos exact_mulmod toy_circuit exact_sound exact_complete toy_pos_fr toy_in_field ltac:(reflexivity) (proj1 C52_case) 4000000020 4000000000
    (proj1 I) (proj2 I)) as [A B].
  split; [apply A; split; [vm_compute; split; congruence|]; split; [vm_compute; split; congruence|reflexivity]|]. split; [exact B|]. split; vm_compute; discriminate.
Qed.
Example C104_case : in_field toy_circuit /\ satisfied toy_pos exact_mulmod toy_circuit /\ enforced_change toy_circuit = -20 /\
  satisfied toy_pos exact_mulmod (with_sums toy_circuit 20 0) /\ ~ satisfied toy_pos exact_mulmod (with_sums toy_circuit 19 (19 - 20 + fr_modulus)).
Proof.
  pose proof (C104_sums_partial toy_pos exact_mulmod toy_circuit exact_sound exact_complete toy_pos_fr toy_in_field ltac:(reflexivity) (proj1 C52_case)) as A.
  split; [exact toy_in_field|]. split; [apply C52_case|]. split; [reflexivity|]. split.
  - apply A; [split; vm_compute; congruence..|]. unfold bits32. split; [lia|]. split; [lia|reflexivity].
  - intros S. apply A in S; [|split; vm_compute; congruence..]. destruct S as (_ & [_ B] & _). vm_compute in B. discriminate.
Qed.

(** ** C105 *)
(** *** Specification *)
Section Histories.
Variable poseidon : list Z -> Z.
Variable mulmod : Z -> Z -> Z -> Z -> Prop.
(** user number snd e of the swap fst e *)
Definition place := (Circuit * nat)%type.
Definition id_at (e : place) : Z := nth (snd e) (UserID (fst e)) 0.
Definition ob_at (e : place) : Z := nth (snd e) (OriginalBalances (fst e)) 0.
Definition ub_at (e : place) : Z := nth (snd e) (UpdatedBalances (fst e)) 0.
Definition oe_at (e : place) : Z := nth (snd e) (OriginalUpdEpoch (fst e)) 0.
Definition oh_at (e : place) : Z := nth (snd e) (OriginalHashes (fst e)) 0.
Definition epoch_at (e : place) : Z := CurrentEpochNum (fst e).
Definition removed (e : place) : Z := old_leaf poseidon (fst e) (snd e).
Definition inserted (e : place) : Z := new_leaf poseidon (fst e) (snd e).
Definition accepted_at (e : place) : Prop := in_field (fst e) /\ satisfied poseidon mulmod (fst e) /\ (snd e < users (fst e))%nat.
(** newest first: each swap removes the leaf that the one before inserted *)
Fixpoint linked (l : list place) : Prop :=
  match l with a :: ((b :: _) as r) => removed a = inserted b /\ linked r | _ => True end.
Definition collision (x y : list Z) : Prop := x <> y /\ length x = 4%nat /\ length y = 4%nat /\ poseidon x = poseidon y.
Definition hashed_old (e : place) : list Z := [id_at e; ob_at e; oe_at e; oh_at e].
Definition hashed_new (e : place) : list Z := [id_at e; ub_at e; epoch_at e; removed e].
(** the newer swap a starts where the older b ended *)
Definition handed_over (a b : place) : Prop :=
  id_at a = id_at b /\ ob_at a = ub_at b /\ oe_at a = epoch_at b /\ oh_at a = removed b /\ epoch_at b < epoch_at a.

Lemma removed_eq : forall e, removed e = poseidon (hashed_old e).
Proof using. reflexivity. Qed.
Lemma inserted_eq : forall e, inserted e = poseidon (hashed_new e).
Proof using. reflexivity. Qed.
Lemma list_cases : forall x y : list Z, {x = y} + {x <> y}.
Proof using. apply list_eq_dec, Z.eq_dec. Qed.
Lemma accepted_epochs : forall e, accepted_at e -> 0 <= oe_at e < epoch_at e /\ epoch_at e < 2 ^ 32.
Proof using. intros e (F & S & H). destruct (C52_integrity _ _ _ F S) as (_ & _ & _ & _ & J & B & _). specialize (J _ H). unfold oe_at, epoch_at. lia. Qed.

(** the remainders of the swap are those of the product of the leaves removed from and inserted for its users *)
Definition carries_leaves (c : Circuit) : Prop :=
  RemainderR1 c = (prod_upto (users c) (fun i => (removed (c, i) + DeltaModL1 c) mod fr_modulus) * randomizers poseidon (Randomizer1 c)) mod ChallengeL1 c /\
  RemainderR2 c = (prod_upto (users c) (fun i => (inserted (c, i) + DeltaModL2 c) mod fr_modulus) * randomizers poseidon (Randomizer2 c)) mod ChallengeL2 c.

(** A user's chain of updates: the identifier stays, every update starts from the balance and the epoch of the one before
    and the epochs grow; or two consecutive entries show a collision of the hash. *)
Theorem C105_history : mulmod_sound mulmod -> forall l, Forall accepted_at l -> linked l ->
  (forall e, In e l -> carries_leaves (fst e)) /\ (
  (exists k a b, nth_error l k = Some a /\ nth_error l (S k) = Some b /\ collision (hashed_old a) (hashed_new b)) \/
  (forall k a b, nth_error l k = Some a -> nth_error l (S k) = Some b -> handed_over a b) /\
  (forall j k a b, (j < k)%nat -> nth_error l j = Some a -> nth_error l k = Some b -> id_at a = id_at b /\ epoch_at b + Z.of_nat (k - j) <= epoch_at a) /\
  Z.of_nat (length l) < 2 ^ 32).
Proof using.
  intros MS l A L.
  split. { intros e He. rewrite Forall_forall in A. destruct (A e He) as (F & S & _).
    destruct (satisfied_remainders _ _ MS _ F S) as [E1 E2]. unfold carries_leaves. rewrite E1, E2, !product_app. unfold rows, randomizers, prod_upto. rewrite !map_map. split; reflexivity. }
  assert (C : (exists k a b, nth_error l k = Some a /\ nth_error l (S k) = Some b /\ collision (hashed_old a) (hashed_new b)) \/
    (forall k a b, nth_error l k = Some a -> nth_error l (S k) = Some b -> handed_over a b)).
  { induction l as [|a l IH]; [right; intros [|k] a b E; discriminate E|].
    destruct l as [|b l]; [right; intros [|[|k]] x y E1 E2; discriminate E2|].
    destruct L as [E L]. inversion_clear A as [|? ? Aa A'].
    destruct (list_cases (hashed_old a) (hashed_new b)) as [H|H].
    - destruct (IH A' L) as [(k & x & y & E1 & E2 & K)|K]; [left; exists (S k), x, y; auto|]. right. intros [|k] x y E1 E2.
      + cbn in E1, E2. injection E1 as <-. injection E2 as <-. unfold hashed_old, hashed_new in H. injection H as H1 H2 H3 H4.
        pose proof (accepted_epochs a Aa). unfold handed_over. repeat (split; [assumption|]). lia.
      + exact (K k x y E1 E2).
    - left. exists 0%nat, a, b. split; [reflexivity|]. split; [reflexivity|]. split; [exact H|]. split; [reflexivity|]. split; [reflexivity|].
      rewrite <- removed_eq, <- inserted_eq. exact E. }
  destruct C as [C|C]; [left; exact C|right]. split; [exact C|].
  assert (D : forall n j a b, nth_error l j = Some a -> nth_error l (j + S n) = Some b -> id_at a = id_at b /\ epoch_at b + Z.of_nat (S n) <= epoch_at a).
  { induction n as [|n IH]; intros j a b E1 E2.
    - rewrite Nat.add_1_r in E2. destruct (C j a b E1 E2) as (I & _ & _ & _ & T). split; [exact I|lia].
    - destruct (nth_error l (S j)) as [x|] eqn:Ex.
      + destruct (C j a x E1 Ex) as (I & _ & _ & _ & T). replace (j + S (S n))%nat with (S j + S n)%nat in E2 by lia.
        destruct (IH (S j) x b Ex E2) as [I' T']. split; [congruence|lia].
      + apply nth_error_None in Ex. assert (nth_error l (j + S (S n)) <> None) as N by congruence. apply nth_error_Some in N. lia. }
  split.
  - intros j k a b H E1 E2. replace k with (j + S (k - j - 1))%nat in E2 by lia. replace (k - j)%nat with (S (k - j - 1)) by lia. exact (D _ _ _ _ E1 E2).
  - destruct l as [|a l]; [reflexivity|]. inversion_clear A as [|? ? Aa A']. pose proof (accepted_epochs a Aa) as Ba. destruct l as [|b l].
    + cbn [length]. lia.
    + destruct (nth_error (a :: b :: l) (S (length l))) as [x|] eqn:Ex; [|apply nth_error_None in Ex; cbn [length] in Ex; lia].
      destruct (D (length l) 0%nat a x eq_refl Ex) as [_ T]. apply nth_error_In in Ex. destruct Ex as [<-|Ex].
      * cbn [length]. lia.
      * rewrite Forall_forall in A'. pose proof (accepted_epochs x (A' x Ex)). cbn [length]. lia.
Qed.
(** The newest leaf fixes the history: two chains that end in the same leaf agree as far back as both reach, or two entries
    at the same distance show a collision. *)
Theorem C105_unique : forall l l', linked l -> linked l' ->
  match l, l' with a :: _, b :: _ => inserted a = inserted b | _, _ => True end ->
  (exists k a b, nth_error l k = Some a /\ nth_error l' k = Some b /\ (collision (hashed_new a) (hashed_new b) \/ collision (hashed_old a) (hashed_old b))) \/
  (forall k a b, nth_error l k = Some a -> nth_error l' k = Some b ->
     id_at a = id_at b /\ epoch_at a = epoch_at b /\ ub_at a = ub_at b /\ ob_at a = ob_at b /\ oe_at a = oe_at b /\ oh_at a = oh_at b).
Proof using.
  induction l as [|a l IH]; intros l' L L' E; [right; intros [|k] ? ? H; discriminate H|].
  destruct l' as [|b l']; [right; intros [|k] ? ? _ H; discriminate H|].
  destruct (list_cases (hashed_new a) (hashed_new b)) as [N|N].
  2: { left. exists 0%nat, a, b. split; [reflexivity|]. split; [reflexivity|]. left. repeat (split; [assumption || reflexivity|]). exact E. }
  assert (R : removed a = removed b) by (unfold hashed_new in N; congruence).
  destruct (list_cases (hashed_old a) (hashed_old b)) as [O|O].
  2: { left. exists 0%nat, a, b. split; [reflexivity|]. split; [reflexivity|]. right. repeat (split; [assumption || reflexivity|]). exact R. }
  assert (Lt : linked l) by (destruct l; [exact I|apply L]). assert (Lt' : linked l') by (destruct l'; [exact I|apply L']).
  specialize (IH l' Lt Lt'). destruct IH as [(k & x & y & E1 & E2 & K)|K].
  { destruct l as [|x l]; [exact I|]. destruct l' as [|y l']; [exact I|]. destruct L as [L1 _], L' as [L2 _]. congruence. }
  - left. exists (S k), x, y. auto.
  - right. intros [|k] x y E1 E2.
    + cbn in E1, E2. injection E1 as <-. injection E2 as <-. unfold hashed_new in N. unfold hashed_old in O. injection N as N1 N2 N3 _. injection O as _ O2 O3 O4. auto 10.
    + exact (K k x y E1 E2).
Qed.
End Histories.
(** two swaps of three users, the second from the state the first leaves *)
Definition second_swap : Circuit := completed toy_pos
  {| ChallengeL1 := 1000003; ChallengeL2 := 998244353; RemainderR1 := 0; RemainderR2 := 0; CurrentEpochNum := 12;
     DeltaModL1 := 2 ^ 1023 mod 1000003; DeltaModL2 := 2 ^ 1023 mod 998244353; Randomizer1 := 15; Randomizer2 := 16; OriginalSum := 80; UpdatedSum := 0;
     UserID := [2; 5]; OriginalBalances := [25; 5]; OriginalHashes := [old_leaf toy_pos toy_circuit 1; old_leaf toy_pos toy_circuit 2]; OriginalUpdEpoch := [9; 9];
     UpdatedBalances := [25; 45] |}.
Lemma second_swap_field : in_field second_swap.
Proof. in_field_compute. Qed.
Lemma second_swap_satisfied : satisfied toy_pos exact_mulmod second_swap.
Proof.
  apply completed_satisfied; [exact exact_sound|exact exact_complete|exact toy_pos_fr|exact second_swap_field|]. change (integrity second_swap).
  split; [vm_compute; lia|]. split; [repeat split|]. split.
  { change (users second_swap) with 2%nat. intros i j Hij. destruct j as [|[|j]]; destruct i as [|i]; try lia; reflexivity. }
  split. { cbn. repeat constructor; cbn; intuition lia. }
  split. { change (users second_swap) with 2%nat. intros i Hi. destruct i as [|[|i]]; [| |lia]; cbn; lia. }
  repeat split; vm_compute; congruence.
Qed.
Example C105_case : let l := [(second_swap, 1%nat); (toy_circuit, 2%nat)] in
  Forall (accepted_at toy_pos exact_mulmod) l /\ linked toy_pos l /\ map (@id_at) l = [5; 5] /\ map (@epoch_at) l = [12; 9] /\ map (@ub_at) l = [45; 5].
Proof.
  cbv zeta. split; [|split; [split; [vm_compute; reflexivity|exact I]|repeat split]].
  apply Forall_cons; [split; [exact second_swap_field|]; split; [exact second_swap_satisfied|vm_compute; lia]|].
  apply Forall_cons; [split; [exact toy_in_field|]; split; [apply C52_case|vm_compute; lia]|apply Forall_nil].
Qed.

(** ** C106 *)
(** *** Specification: a ledger of balances, kept by whoever knows them all *)
Definition ledger := Z -> Z.
Definition total (ids : list Z) (f : ledger) : Z := sum_list (map f ids).
Definition booked (f : ledger) (c : Circuit) : ledger :=
  fun x => match find (fun p => fst p =? x) (combine (UserID c) (UpdatedBalances c)) with Some p => snd p | None => f x end.
Definition matches (f : ledger) (c : Circuit) : Prop := map f (UserID c) = OriginalBalances c.
(** swaps, one per epoch: each takes the balances of the ledger and the sum of the swap before *)
Fixpoint follows (poseidon : list Z -> Z) (mulmod : Z -> Z -> Z -> Z -> Prop) (ids : list Z) (f : ledger) (s : Z) (l : list Circuit) : Prop :=
  match l with
  | [] => True
  | c :: l => in_field c /\ satisfied poseidon mulmod c /\ Z.of_nat (users c) < 2 ^ 200 /\ incl (UserID c) ids /\ matches f c /\ OriginalSum c = s /\
      follows poseidon mulmod ids (booked f c) (UpdatedSum c) l
  end.
Definition ledger_after (f : ledger) (l : list Circuit) : ledger := fold_left booked l f.
Definition sum_after (s : Z) (l : list Circuit) : Z := fold_left (fun _ c => UpdatedSum c) l s.
Definition first_change (c : Circuit) : Z := nth 0 (UpdatedBalances c) 0 - nth 0 (OriginalBalances c) 0.

Lemma sum_list_cons : forall x l, sum_list (x :: l) = x + sum_list l.
Proof. reflexivity. Qed.
(** overwriting one balance *)
Lemma total_one : forall ids f x v, NoDup ids -> In x ids -> total ids (fun y => if x =? y then v else f y) = total ids f + v - f x.
Proof.
  induction ids as [|a ids IH]; intros f x v N H; [contradiction|]. inversion_clear N as [|? ? Ha N']. unfold total in *. cbn [map]. rewrite !sum_list_cons.
  destruct H as [->|H].
  - rewrite Z.eqb_refl. replace (map (fun y => if x =? y then v else f y) ids) with (map f ids); [lia|].
    apply map_ext_in. intros y Hy. destruct (Z.eqb_spec x y) as [->|]; [contradiction|reflexivity].
  - destruct (Z.eqb_spec x a) as [->|]; [contradiction|]. rewrite IH by assumption. lia.
Qed.
Lemma total_booked_gen : forall ids, NoDup ids -> forall us vs f, NoDup us -> incl us ids -> length vs = length us ->
  total ids (fun x => match find (fun p => fst p =? x) (combine us vs) with Some p => snd p | None => f x end) = total ids f + sum_list vs - sum_list (map f us).
Proof.
  intros ids N. induction us as [|u us IH]; intros vs f Nu Hi Hl.
  - destruct vs; [|discriminate]. change (total ids f = total ids f + 0 - 0). lia.
  - destruct vs as [|v vs]; [discriminate|]. inversion_clear Nu as [|? ? Hu Nu']. cbn [combine find fst map]. rewrite !sum_list_cons.
    transitivity (total ids (fun x => if u =? x then v else match find (fun p => fst p =? x) (combine us vs) with Some p => snd p | None => f x end)).
    { unfold total. f_equal. apply map_ext. intros x. destruct (u =? x); reflexivity. }
    rewrite total_one; [|exact N|apply Hi; left; reflexivity].
    rewrite IH; [|exact Nu'|intros y Hy; apply Hi; right; exact Hy|injection Hl; auto].
    destruct (find (fun p => fst p =? u) (combine us vs)) as [[a b]|] eqn:E; [|lia].
    apply find_some in E. destruct E as [E1 E2]. cbn in E2. apply Z.eqb_eq in E2. subst a. apply in_combine_l in E1. contradiction.
Qed.

(** The sum and the ledger drift apart by the changes of the first users, and by nothing else. *)
Theorem C106_ledger_partial : forall poseidon mulmod ids, NoDup ids -> forall l f s, follows poseidon mulmod ids f s l ->
  sum_after s l - total ids (ledger_after f l) = s - total ids f + sum_list (map first_change l).
Proof.
  intros poseidon mulmod ids N. induction l as [|c l IH]; intros f s H; [cbn; lia|].
  destruct H as (F & S & Hn & Hi & M & Hs & H). specialize (IH _ _ H). unfold sum_after, ledger_after in *. cbn [fold_left map]. rewrite IH. rewrite sum_list_cons.
  pose proof (C53_circuit_law _ _ _ F S Hn) as L. pose proof (C52_integrity _ _ _ F S) as (_ & (_ & _ & _ & L4) & _ & Nu & _).
  unfold booked at 1. rewrite total_booked_gen by assumption. unfold matches in M. rewrite M. unfold first_change at 2. lia.
Qed.
(** If no swap changes its first user the published sum is the total of the ledger after every epoch, and the total stays below 2^32. *)
Theorem C106_ledger_kept : forall poseidon mulmod ids, NoDup ids -> forall l f, follows poseidon mulmod ids f (total ids f) l ->
  (forall c, In c l -> first_change c = 0) ->
  forall k, (0 < k <= length l)%nat -> sum_after (total ids f) (firstn k l) = total ids (ledger_after f (firstn k l)) /\ bits32 (total ids (ledger_after f (firstn k l))).
Proof.
  intros poseidon mulmod ids N l f H Z0 k Hk.
  assert (P : forall l f s k, follows poseidon mulmod ids f s l -> follows poseidon mulmod ids f s (firstn k l)).
  { clear. induction l as [|c l IH]; intros f s [|k] H; cbn [firstn]; try exact I. destruct H as (A & B & C & D & E & F & H). repeat (split; [assumption|]). now apply IH. }
  assert (E : sum_after (total ids f) (firstn k l) = total ids (ledger_after f (firstn k l))).
  { pose proof (C106_ledger_partial poseidon mulmod ids N _ _ _ (P _ _ _ k H)) as D.
    assert (Q : sum_list (map first_change (firstn k l)) = 0).
    { assert (Z1 : forall c, In c (firstn k l) -> first_change c = 0) by (intros c Hc; apply Z0; rewrite <- (firstn_skipn k l); apply in_or_app; left; exact Hc).
      revert Z1. clear. induction (firstn k l) as [|c m IH]; intros Z1; [reflexivity|]. cbn [map]. rewrite sum_list_cons, IH, (Z1 c); [reflexivity|left; reflexivity|intros; apply Z1; right; assumption]. }
    lia. }
  split; [exact E|]. rewrite <- E.
  assert (G : forall l f s, follows poseidon mulmod ids f s l -> l <> [] -> bits32 (sum_after s l)).
  { clear. induction l as [|c l IH]; intros f s H Hl; [congruence|]. destruct H as (F & S & _ & _ & _ & _ & H). unfold sum_after in *. cbn [fold_left].
    destruct l as [|d l]; [|apply (IH _ _ H); discriminate]. cbn. apply (C52_integrity _ _ _ F S). }
  apply (G _ _ _ (P _ _ _ k H)). intros E0. apply (f_equal (@length Circuit)) in E0. rewrite firstn_length in E0. cbn in E0. lia.
Qed.
(** Full statement: the sum is the total of the ledger after every epoch. Refuted by one swap that gives the first user 1. *)
Theorem C106_ledger_refuted : exists poseidon mulmod ids f l, mulmod_sound mulmod /\ mulmod_complete mulmod /\ (forall x, in_fr (poseidon x)) /\
  NoDup ids /\ follows poseidon mulmod ids f (total ids f) l /\ sum_after (total ids f) l <> total ids (ledger_after f l).
Proof.
  assert (P : forall l : list Z, in_fr 7) by (intros; split; [vm_compute; discriminate|reflexivity]).
  set (c := double_count (fun _ => 7) 101 103 5 6).
  assert (F : in_field c) by in_field_compute.
  assert (S : satisfied (fun _ => 7) exact_mulmod c).
  { apply completed_satisfied; [exact exact_sound|exact exact_complete|exact P|exact F|]. change (integrity c).
    split; [vm_compute; lia|]. split; [repeat split|]. split.
    { change (users c) with 2%nat. intros i j Hij. destruct j as [|[|j]]; destruct i as [|i]; try lia; reflexivity. }
    split. { cbn. repeat constructor; cbn; intuition lia. }
    split. { change (users c) with 2%nat. intros i Hi. destruct i as [|[|i]]; [| |lia]; cbn; lia. }
    repeat split; vm_compute; congruence. }
  exists (fun _ => 7), exact_mulmod, [0; 1], (fun _ => 0), [c]. split; [exact exact_sound|]. split; [exact exact_complete|]. split; [exact P|].
  split; [repeat constructor; cbn; intuition lia|]. split; [|vm_compute; discriminate].
  split; [exact F|]. split; [exact S|]. split; [reflexivity|]. split; [intros x Hx; exact Hx|]. split; [reflexivity|]. split; [reflexivity|exact I].
Qed.
(** the two swaps of C105_case, in a ledger of four users *)
Example C106_case : let f := fun x => if x =? 1 then 10 else if x =? 2 then 20 else if x =? 5 then 30 else if x =? 9 then 40 else 0 in
  let ids := [1; 2; 5; 9] in let l := [toy_circuit; second_swap] in
  follows toy_pos exact_mulmod ids f (total ids f) l /\ (forall c, In c l -> first_change c = 0) /\
  sum_after (total ids f) l = 120 /\ map (ledger_after f l) ids = [10; 25; 45; 40].
Proof.
  cbv zeta. split; [|split; [intros c [<-|[<-|[]]]; vm_compute; reflexivity|split; vm_compute; reflexivity]].
  split; [exact toy_in_field|]. split; [apply C52_case|]. split; [reflexivity|]. split; [intros x Hx; cbn in Hx |- *; tauto|]. split; [vm_compute; reflexivity|].
  split; [vm_compute; reflexivity|].
  split; [exact second_swap_field|]. split; [exact second_swap_satisfied|]. split; [reflexivity|]. split; [intros x Hx; cbn in Hx |- *; tauto|]. split; [vm_compute; reflexivity|].
  split; [vm_compute; reflexivity|exact I].
Qed.

Print Assumptions C104_sums_partial.
Print Assumptions C104_some_sums.
Print Assumptions C104_verifier.
Print Assumptions C104_sums_refuted.
Print Assumptions C105_history.
Print Assumptions C105_unique.
Print Assumptions C106_ledger_partial.
Print Assumptions C106_ledger_kept.
Print Assumptions C106_ledger_refuted.
