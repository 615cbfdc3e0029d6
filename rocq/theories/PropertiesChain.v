(** Theorems for properties C97 and C98: calls of the deployed contract from Go. *)
From Coq Require Import ZArith Znumtheory Bool Lia String List.
From Verif Require Import GoBig AccModel HashModel FSModel FSProofs SolModel SolProofs CircuitModel CircuitProofs PropertiesCircuit EvmModel EvmCode EvmSym EvmProofs Keccak PropertiesEvm ChainModel.
Import ListNotations.
Open Scope Z_scope.

(** ** words and bytes *)
Definition word (x : Z) : Prop := 0 <= x < 2 ^ 256.
Definition words2 (a : Z * Z) : Prop := word (fst a) /\ word (snd a).
Definition words4 (b : (Z * Z) * (Z * Z)) : Prop := words2 (fst b) /\ words2 (snd b).

Lemma word_at_be : forall l i, (32 * (i + 1) <= List.length l)%nat -> word_at l i = be (firstn 32 (skipn (32 * i) l)).
Proof.
  intros l i H. unfold word_at. f_equal. set (m := skipn (32 * i) l).
  assert (Hm : (32 <= List.length m)%nat) by (unfold m; rewrite skipn_length; lia).
  transitivity (map (fun j => nth j m 0) (seq 0 32)).
  { apply map_ext. intros j. unfold m. rewrite nth_skipn'. reflexivity. }
  clearbody m. clear -Hm. assert (E : forall n (m : list Z), (n <= List.length m)%nat -> map (fun j => nth j m 0) (seq 0 n) = firstn n m).
  { induction n as [|n IH]; intros m' H'; [reflexivity|]. destruct m' as [|x m']; [cbn in H'; lia|]. cbn [seq map firstn nth]. f_equal.
    rewrite <- seq_shift, map_map. cbn [nth]. apply IH. cbn in H'. lia. }
  now apply E.
Qed.
Lemma flat_words_length : forall (f : Z -> list Z) ws, (forall w, List.length (f w) = 32%nat) -> List.length (flat_map f ws) = (32 * List.length ws)%nat.
Proof. intros f ws Hf. induction ws as [|w ws IH]; [reflexivity|]. cbn [flat_map List.length]. rewrite app_length, Hf, IH. lia. Qed.
Lemma flat_word : forall (f : Z -> list Z) ws i rest, (forall w : Z, List.length (f w) = 32%nat) -> (i < List.length ws)%nat ->
  firstn 32 (skipn (32 * i) (flat_map f ws ++ rest)) = f (nth i ws 0).
Proof.
  intros f ws i rest Hf. revert i. induction ws as [|w ws IH]; intros i Hi; [cbn in Hi; lia|]. cbn [flat_map].
  destruct i as [|i].
  - rewrite Nat.mul_0_r. change (skipn 0 ((f w ++ flat_map f ws) ++ rest)) with ((f w ++ flat_map f ws) ++ rest).
    rewrite <- app_assoc, firstn_app, Hf, Nat.sub_diag, firstn_all2 by (rewrite Hf; lia). apply app_nil_r.
  - cbn [nth]. rewrite <- app_assoc, skipn_app. rewrite (skipn_all2 (f w)) by (rewrite Hf; lia). cbn [app]. rewrite Hf.
    replace (32 * S i - 32)%nat with (32 * i)%nat by lia. apply IH. cbn in Hi. lia.
Qed.
Lemma be_bytes_bytes : forall w, Forall (fun b => 0 <= b < 256) (be_bytes w).
Proof. intros w. unfold be_bytes. apply Forall_map, Forall_forall. intros i _. apply Z.mod_pos_bound. lia. Qed.

(** *** the coordinates come back from the bytes of a proof *)
Theorem C97_bytes : forall a b c rest, words2 a -> words4 b -> words2 c -> proof_args (WriteRawTo a b c ++ rest) = Ret (a, b, c).
Proof.
  intros a b c rest (A1 & A2) ((B1 & B2) & (B3 & B4)) (C1 & C2). unfold proof_args.
  assert (K : forall i, (i < 8)%nat -> coordinate (WriteRawTo a b c ++ rest) i =
     Ret (be (be_bytes (nth i [fst a; snd a; fst (fst b); snd (fst b); fst (snd b); snd (snd b); fst c; snd c] 0)))).
  { intros i Hi. unfold coordinate, WriteRawTo. rewrite app_length, (flat_words_length _ _ be_bytes_length). cbn [List.length].
    destruct (Nat.leb_spec (32 * (i + 1)) (32 * 8 + List.length rest)); [|lia]. rewrite (flat_word _ _ _ _ be_bytes_length) by (cbn; lia). reflexivity. }
  rewrite !K by lia. cbn [bind nth]. unfold word in *. rewrite !be_bytes_of by assumption.
  destruct a as [a0 a1], b as [[b0 b1] [b2 b3]], c as [c0 c1]. reflexivity.
Qed.

(** *** the packed call *)
Lemma method_length : List.length method_id = 4%nat.
Proof. vm_compute. reflexivity. Qed.
Lemma pack_words : forall a b c input i, (i < 8 + List.length input)%nat ->
  word_at (skipn 4 (pack a b c input)) i =
  nth i ([fst a; snd a; fst (fst b); snd (fst b); fst (snd b); snd (snd b); fst c; snd c] ++ input) 0 mod 2 ^ 256.
Proof.
  intros a b c input i Hi. unfold pack. rewrite skipn_app. rewrite (skipn_all2 method_id) by (rewrite method_length; lia). rewrite method_length. rewrite app_nil_l. cbn [skipn Nat.sub].
  set (ws := [fst a; snd a; fst (fst b); snd (fst b); fst (snd b); snd (snd b); fst c; snd c] ++ input).
  assert (Hl : (i < List.length ws)%nat) by (unfold ws; rewrite app_length; cbn [List.length]; lia).
  assert (HU : forall w, List.length (U256Bytes w) = 32%nat) by (intros w; apply be_bytes_length).
  rewrite word_at_be by (rewrite (flat_words_length _ _ HU); lia).
  rewrite <- (app_nil_r (flat_map U256Bytes ws)). rewrite (flat_word _ _ _ _ HU) by exact Hl. unfold U256Bytes. apply be_bytes_of. apply Z.mod_pos_bound. reflexivity.
Qed.
Lemma pack_length : forall a b c input, List.length (pack a b c input) = (4 + 32 * (8 + List.length input))%nat.
Proof.
  intros. unfold pack. rewrite app_length. rewrite flat_words_length by (intros w; apply be_bytes_length). rewrite app_length, method_length. reflexivity.
Qed.
Lemma pack_bytes : forall a b c input, Forall (fun b => 0 <= b < 256) (pack a b c input).
Proof.
  intros. unfold pack. apply Forall_app. split; [vm_compute; repeat constructor; discriminate|].
  apply Forall_forall. intros x Hx. apply in_flat_map in Hx. destruct Hx as (w & _ & Hx). pose proof (be_bytes_bytes (w mod W)) as F.
  rewrite Forall_forall in F. apply F, Hx.
Qed.
Lemma unpack_bool_word : forall b, unpack_bool (be_bytes (b2z b)) = Some b.
Proof. intros []; vm_compute; reflexivity. Qed.

(** the deployed contract, called without payment *)
Definition deployed ecAdd ecMul ecPairing (gas : nat -> Z) (fuel : nat) (cd : list Z) : result :=
  call_contract (EvmModel.precompiled ecAdd ecMul ecPairing) gas runtime cd 0 fuel.
Definition give_words (ecAdd : G1Point -> G1Point -> option G1Point) (ecMul : G1Point -> Z -> option G1Point) : Prop :=
  (forall p q r, ecAdd p q = Some r -> word (X1 r) /\ word (Y1 r)) /\ (forall p s r, ecMul p s = Some r -> word (X1 r) /\ word (Y1 r)).

Theorem C97_call : forall ecAdd ecMul ecPairing gas fuel a b c input, give_words ecAdd ecMul -> (2 ^ 14 <= fuel)%nat ->
  words2 a -> words4 b -> words2 c -> List.length input = 7%nat ->
  VerifyProof (deployed ecAdd ecMul ecPairing gas fuel) a b c input =
  verifyProof ecAdd ecMul ecPairing GnarkTest_vk a b c (map (fun x => x mod 2 ^ 256) input).
Proof.
  intros ecAdd ecMul ecPairing gas fuel a b c input [Ha Hm] Hf (A1 & A2) ((B1 & B2) & (B3 & B4)) (C1 & C2) Hi.
  unfold VerifyProof, deployed. rewrite C96_bytecode; [|apply pack_bytes| |split; [discriminate|reflexivity]|exact Ha|exact Hm|exact Hf].
  2:{ rewrite pack_length, Hi. vm_compute. reflexivity. }
  unfold contract. change (0 =? 0) with true. cbn [negb]. rewrite pack_length, Hi. change (4 + 32 * (8 + 7) <? 484)%nat with false. cbv iota.
  assert (Hs : firstn 4 (pack a b c input) = selector).
  { unfold pack. rewrite firstn_app, method_length, Nat.sub_diag. change (firstn 0 (flat_map U256Bytes _)) with (@nil Z). rewrite app_nil_r.
    rewrite firstn_all2 by (rewrite method_length; lia). reflexivity. }
  destruct (list_eq_dec Z.eq_dec (firstn 4 (pack a b c input)) selector) as [_|N]; [|contradiction]. cbn [negb].
  assert (Em : map (word_at (skipn 4 (pack a b c input))) (seq 8 7) = map (fun x => x mod 2 ^ 256) input).
  { clear -Hi. destruct input as [|i0 [|i1 [|i2 [|i3 [|i4 [|i5 [|i6 [|? ?]]]]]]]]; try discriminate Hi. cbn [seq map]. rewrite !pack_words by (cbn; lia). reflexivity. }
  cbv zeta. rewrite Em, !pack_words by lia. cbn [nth app]. unfold word in *. rewrite !Z.mod_small by assumption.
  replace ((fst (fst b), snd (fst b)), (fst (snd b), snd (snd b))) with b by (destruct b as [[? ?] [? ?]]; reflexivity).
  replace (fst a, snd a) with a by (now destruct a). replace (fst c, snd c) with c by (now destruct c).
  rewrite <- C96_same_source by (rewrite map_length, Hi; change (List.length (IC GnarkTest_vk)) with 8%nat; lia).
  destruct (verify _ _ _ _ _ _ _ _) as [r|msg|]; [apply unpack_bool_word|reflexivity|reflexivity].
Qed.

(** ** the pairing equation *)
Section Equation.
Variables G H T : Type.
Variable add : G -> G -> G.
Variable zero : G.
Variable opp : G -> G.
Variable mul : Z -> G -> G.
Variable tadd : T -> T -> T.
Variable tzero : T.
Variable topp : T -> T.
Variable e : G -> H -> T.

(** Groth16 for the points al, be, ga, de, I0, Is of a key: what gnark's Verify checks of the proof (A, B, C) *)
Definition accepts (al : G) (be ga de : H) (I0 : G) (Is : list G) (A : G) (B : H) (C : G) (xs : list Z) : Prop :=
  e A B = tadd (e al be) (tadd (e (combination G add mul I0 Is xs) ga) (tadd (e C de) tzero)).
(** more about the groups: both sides of an equation can be cancelled, the pairing is additive *)
Record bilinear : Prop := {
  t_left : forall x y z, tadd x y = tadd x z -> y = z;
  t_right : forall x y z, tadd y x = tadd z x -> y = z;
  e_add : forall a b h, e (add a b) h = tadd (e a h) (e b h) }.
(** a point that tells scalars below the order apart, as any point but zero of a group of that prime order does *)
Definition separates (ga : H) (P : G) : Prop :=
  forall s t, 0 <= s < SNARK_SCALAR_FIELD -> 0 <= t < SNARK_SCALAR_FIELD -> e (mul s P) ga = e (mul t P) ga -> s = t.

Lemma combination_one : forall ga I0 Is xs x y ys, bilinear -> Forall (separates ga) Is -> List.length Is = List.length (xs ++ x :: ys) ->
  0 <= x < SNARK_SCALAR_FIELD -> 0 <= y < SNARK_SCALAR_FIELD ->
  e (combination G add mul I0 Is (xs ++ x :: ys)) ga = e (combination G add mul I0 Is (xs ++ y :: ys)) ga -> x = y.
Proof.
  intros ga I0 Is xs x y ys HB. revert Is. induction xs as [|z xs IH]; intros Is HS HL Hx Hy E.
  - destruct Is as [|P Is]; [discriminate|]. inversion_clear HS as [|? ? S1 S2]. unfold combination in E. cbn [app combine fold_right fst snd] in E.
    rewrite !(e_add HB) in E. apply (t_right HB) in E. exact (S1 x y Hx Hy E).
  - destruct Is as [|P Is]; [discriminate|]. inversion_clear HS as [|? ? S1 S2]. unfold combination in E. cbn [app combine fold_right fst snd] in E.
    rewrite !(e_add HB) in E. apply (t_left HB) in E. apply (IH Is S2); [cbn in HL; lia|exact Hx|exact Hy|exact E].
Qed.

Variable dec1 : G1Point -> option G.
Variable dec2 : G2Point -> option H.
Variable ecAdd : G1Point -> G1Point -> option G1Point.
Variable ecMul : G1Point -> Z -> option G1Point.
Variable ecPairing : list (G1Point * G2Point) -> option bool.

(** the points of the deployed key *)
Definition key_points (al : G) (be ga de : H) (I0 : G) (Is : list G) : Prop :=
  dec1 (alfa1 GnarkTest_vk) = Some al /\ dec2 (beta2 GnarkTest_vk) = Some be /\ dec2 (gamma2 GnarkTest_vk) = Some ga /\ dec2 (delta2 GnarkTest_vk) = Some de /\
  Forall2 (fun p P => dec1 p = Some P) (IC GnarkTest_vk) (I0 :: Is).
(** the coordinates a, b, c are those of the points A, B, C *)
Definition proof_points (a : Z * Z) (b : (Z * Z) * (Z * Z)) (c : Z * Z) (A : G) (B : H) (C : G) : Prop :=
  dec1 (G1 (fst a) (snd a)) = Some A /\ dec2 (G2 (fst b) (snd b)) = Some B /\ dec1 (G1 (fst c) (snd c)) = Some C.
Definition small (x : Z) : Prop := 0 <= x < PRIME_Q.
Definition small_coords (a : Z * Z) (b : (Z * Z) * (Z * Z)) (c : Z * Z) : Prop :=
  (small (fst a) /\ small (snd a)) /\ ((small (fst (fst b)) /\ small (snd (fst b))) /\ (small (fst (snd b)) /\ small (snd (snd b)))) /\ (small (fst c) /\ small (snd c)).
Lemma small_word : forall x, small x -> word x.
Proof using. clear. intros x [H1 H2]. assert (PRIME_Q < 2 ^ 256) by reflexivity. unfold word. lia. Qed.
Lemma small_words : forall a b c, small_coords a b c -> words2 a /\ words4 b /\ words2 c /\ coords_ok a b c.
Proof using.
  clear. intros a b c ((A1 & A2) & ((B1 & B2) & (B3 & B4)) & (C1 & C2)). unfold words4, words2, coords_ok.
  repeat split; try (now apply small_word); unfold small in *; lia.
Qed.

Hypothesis HG : groups G H T add zero opp tadd tzero topp e.
Hypothesis HP : SolProofs.precompiled G H T add zero opp mul tadd tzero e dec1 dec2 ecAdd ecMul ecPairing.
Hypothesis HW : give_words ecAdd ecMul.
Variable gas : nat -> Z.
Variable fuel : nat.
Hypothesis HF : (2 ^ 14 <= fuel)%nat.
Notation chain := (VerifyProof (deployed ecAdd ecMul ecPairing gas fuel)).

Lemma chain_answer : forall al be ga de I0 Is a b c A B C input r, key_points al be ga de I0 Is -> small_coords a b c -> proof_points a b c A B C ->
  List.length input = 7%nat -> Forall (fun x => 0 <= x < SNARK_SCALAR_FIELD) input -> (r = true <-> accepts al be ga de I0 Is A B C input) ->
  chain a b c input = Some r.
Proof.
  intros al be ga de I0 Is a b c A B C input r (K1 & K2 & K3 & K4 & K5) Hs (P1 & P2 & P3) Hl Hi Hr.
  destruct (small_words _ _ _ Hs) as (W1 & W2 & W3 & Hc). rewrite C97_call by assumption.
  assert (Em : map (fun x => x mod 2 ^ 256) input = input).
  { rewrite <- (map_id input) at 2. apply map_ext_in. intros x Hx. rewrite Forall_forall in Hi. apply Hi in Hx. apply Z.mod_small.
    assert (SNARK_SCALAR_FIELD < 2 ^ 256) by reflexivity. lia. }
  rewrite Em. apply (verifyProof_answer G H T add zero opp mul tadd tzero topp e dec1 dec2 ecAdd ecMul ecPairing HG HP GnarkTest_vk al be ga de I0 Is a b c input A B C r); try assumption.
  - rewrite Hl. pose proof (f2_length _ _ _ _ _ K5) as KL. cbn [List.length] in KL. change (List.length (IC GnarkTest_vk)) with 8%nat in KL. lia.
  - eapply Forall_impl; [|exact Hi]. cbn. lia.
  - destruct Hs as ((_ & [S1 _]) & _). exact S1.
  - eapply Forall_impl; [|exact Hi]. cbn. lia.
Qed.
Lemma chain_yes : forall al be ga de I0 Is a b c A B C input, key_points al be ga de I0 Is -> small_coords a b c -> proof_points a b c A B C ->
  List.length input = 7%nat -> Forall word input ->
  (chain a b c input = Some true <-> Forall (fun x => x < SNARK_SCALAR_FIELD) input /\ accepts al be ga de I0 Is A B C input).
Proof.
  intros al be ga de I0 Is a b c A B C input (K1 & K2 & K3 & K4 & K5) Hs (P1 & P2 & P3) Hl Hi.
  destruct (small_words _ _ _ Hs) as (W1 & W2 & W3 & Hc). rewrite C97_call by assumption.
  assert (Em : map (fun x => x mod 2 ^ 256) input = input).
  { rewrite <- (map_id input) at 2. apply map_ext_in. intros x Hx. rewrite Forall_forall in Hi. apply Hi in Hx. now apply Z.mod_small. }
  rewrite Em. rewrite (verifyProof_equation G H T add zero opp mul tadd tzero topp e dec1 dec2 ecAdd ecMul ecPairing HG HP GnarkTest_vk al be ga de I0 Is a b c input); try assumption.
  - unfold accepts. split.
    + intros (_ & H1 & A' & B' & C' & D1 & D2 & D3 & E). split; [exact H1|]. rewrite P1 in D1. rewrite P2 in D2. rewrite P3 in D3.
      injection D1 as ->. injection D2 as ->. injection D3 as ->. exact E.
    + intros (H1 & E). split; [exact Hc|]. split; [exact H1|]. exists A, B, C. tauto.
  - rewrite Hl. pose proof (f2_length _ _ _ _ _ K5) as KL. cbn [List.length] in KL. change (List.length (IC GnarkTest_vk)) with 8%nat in KL. lia.
  - eapply Forall_impl; [|exact Hi]. unfold word. cbn. lia.
  - destruct Hs as ((_ & [S1 _]) & _). exact S1.
Qed.
End Equation.

(** A proof that is accepted for some inputs is refused for every other value of one of them: with the answer no if the
    value is in range, with an error if not. *)
Theorem C97_unique : forall (G H T : Type) add zero opp mul tadd tzero topp e dec1 dec2 ecAdd ecMul ecPairing gas fuel,
  groups G H T add zero opp tadd tzero topp e -> SolProofs.precompiled G H T add zero opp mul tadd tzero e dec1 dec2 ecAdd ecMul ecPairing ->
  bilinear G H T add tadd e -> give_words ecAdd ecMul -> (2 ^ 14 <= fuel)%nat ->
  forall al be ga de I0 Is a b c A B C xs x y ys,
  key_points G H dec1 dec2 al be ga de I0 Is -> Forall (separates G H T mul e ga) Is ->
  small_coords a b c -> proof_points G H dec1 dec2 a b c A B C ->
  List.length (xs ++ x :: ys) = 7%nat -> Forall word (xs ++ x :: ys) -> word y -> y <> x ->
  VerifyProof (deployed ecAdd ecMul ecPairing gas fuel) a b c (xs ++ x :: ys) = Some true ->
  VerifyProof (deployed ecAdd ecMul ecPairing gas fuel) a b c (xs ++ y :: ys) = if y <? SNARK_SCALAR_FIELD then Some false else None.
Proof.
  intros G H T add zero opp mul tadd tzero topp e dec1 dec2 ecAdd ecMul ecPairing gas fuel HG HP HB HW HF al be ga de I0 Is a b c A B C xs x y ys K HS Hs P Hl Hw Hy N E.
  assert (Hl2 : List.length (xs ++ y :: ys) = 7%nat) by (rewrite app_length in *; exact Hl).
  assert (HIs : List.length Is = 7%nat).
  { destruct K as (_ & _ & _ & _ & K5). pose proof (f2_length _ _ _ _ _ K5) as KL. cbn [List.length] in KL. change (List.length (IC GnarkTest_vk)) with 8%nat in KL. lia. }
  apply (proj1 (chain_yes G H T add zero opp mul tadd tzero topp e dec1 dec2 ecAdd ecMul ecPairing HG HP HW gas fuel HF al be ga de I0 Is a b c A B C (xs ++ x :: ys) K Hs P Hl Hw)) in E.
  destruct E as [R E].
  assert (Hw2 : Forall word (xs ++ y :: ys)). { apply Forall_app in Hw. destruct Hw as [W1 W2]. inversion_clear W2. apply Forall_app. split; [assumption|constructor; assumption]. }
  assert (Rx : 0 <= x < SNARK_SCALAR_FIELD).
  { apply Forall_app in Hw, R. destruct Hw as [_ W2], R as [_ R2]. inversion_clear W2 as [|? ? W3 _]. inversion_clear R2. unfold word in W3. lia. }
  destruct (Z.ltb_spec y SNARK_SCALAR_FIELD) as [L|L].
  - apply (chain_answer G H T add zero opp mul tadd tzero topp e dec1 dec2 ecAdd ecMul ecPairing HG HP HW gas fuel HF al be ga de I0 Is a b c A B C _ false K Hs P Hl2).
    + apply Forall_forall. intros z Hz. assert (z < SNARK_SCALAR_FIELD).
      { apply in_app_or in Hz. destruct Hz as [Hz|[<-|Hz]]; [|exact L|]; rewrite Forall_forall in R; apply R, in_or_app; [left|right; right]; exact Hz. }
      rewrite Forall_forall in Hw2. pose proof (Hw2 z Hz) as Wz. unfold word in Wz. lia.
    + split; [discriminate|]. intros E2. exfalso. apply N. unfold accepts in E, E2. rewrite E in E2. apply (t_left _ _ _ _ _ _ HB) in E2. apply (t_right _ _ _ _ _ _ HB) in E2.
      symmetry. refine (combination_one G H T add opp mul tadd tzero topp e ga I0 Is xs x y ys HB HS _ Rx _ E2); [lia|unfold word in Hy; lia].
  - destruct (small_words _ _ _ Hs) as (W1 & W2 & W3 & _). rewrite C97_call by assumption.
    destruct (verifyProof _ _ _ _ _ _ _ _) as [r|] eqn:V; [|reflexivity]. exfalso. apply verifyProof_some in V. destruct V as (_ & V & _).
    rewrite Forall_forall in V. specialize (V y). rewrite map_app in V. cbn [map] in V. rewrite (Z.mod_small y) in V by exact Hy.
    specialize (V ltac:(apply in_or_app; right; left; reflexivity)). lia.
Qed.

Lemma test_input : forall p, contract_test_input p = p_L1 p :: [p_L2 p; p_R1 p; p_R2 p; p_Epoch p; p_D1 p; p_D2 p].
Proof. reflexivity. Qed.
Lemma canonical_words : forall p, canonical p -> Forall word (contract_test_input p) /\ Forall (fun x => x < SNARK_SCALAR_FIELD) (contract_test_input p).
Proof.
  intros p HC. assert (L : fr_modulus < 2 ^ 256) by reflexivity. assert (S1 : SNARK_SCALAR_FIELD = fr_modulus) by reflexivity.
  split; (eapply Forall_impl; [|exact HC]); intros x Hx; unfold in_fr, word in *; lia.
Qed.

(** The contract's test passes exactly if the proof it made satisfies the equation of the deployed key for the public
    witness, and the first challenge is not the 42 it uses as a wrong value. *)
Theorem C97_test : forall (G H T : Type) add zero opp mul tadd tzero topp e dec1 dec2 ecAdd ecMul ecPairing gas fuel,
  groups G H T add zero opp tadd tzero topp e -> SolProofs.precompiled G H T add zero opp mul tadd tzero e dec1 dec2 ecAdd ecMul ecPairing ->
  bilinear G H T add tadd e -> give_words ecAdd ecMul -> (2 ^ 14 <= fuel)%nat ->
  forall al be ga de I0 Is a b c A B C p rest,
  key_points G H dec1 dec2 al be ga de I0 Is -> Forall (separates G H T mul e ga) Is ->
  small_coords a b c -> proof_points G H dec1 dec2 a b c A B C -> canonical p ->
  exists r, TestVerifyProof (deployed ecAdd ecMul ecPairing gas fuel) (WriteRawTo a b c ++ rest) p = Ret r /\
  (r = true <-> accepts G H T add mul tadd tzero e al be ga de I0 Is A B C (GenPublicWitness p) /\ p_L1 p <> 42).
Proof.
  intros G H T add zero opp mul tadd tzero topp e dec1 dec2 ecAdd ecMul ecPairing gas fuel HG HP HB HW HF al be ga de I0 Is a b c A B C p rest K HS Hs P HC.
  destruct (small_words _ _ _ Hs) as (W1 & W2 & W3 & _). unfold TestVerifyProof. rewrite C97_bytes by assumption. cbn [bind]. eexists. split; [reflexivity|].
  destruct (C58_contract_order_partial p HC) as (_ & <- & _). destruct (canonical_words p HC) as [Hw Hr].
  pose proof (chain_yes G H T add zero opp mul tadd tzero topp e dec1 dec2 ecAdd ecMul ecPairing HG HP HW gas fuel HF al be ga de I0 Is a b c A B C (contract_test_input p) K Hs P eq_refl Hw) as Y.
  destruct (VerifyProof _ a b c (contract_test_input p)) as [[|]|] eqn:V.
  - destruct (proj1 Y eq_refl) as [_ Ac]. rewrite test_input in V, Hw. change (tl (contract_test_input p)) with [p_L2 p; p_R1 p; p_R2 p; p_Epoch p; p_D1 p; p_D2 p].
    destruct (Z.eq_dec (p_L1 p) 42) as [E|N].
    + rewrite <- E. rewrite V. split; [discriminate|]. intros [_ N]. contradiction.
    + pose proof (C97_unique G H T add zero opp mul tadd tzero topp e dec1 dec2 ecAdd ecMul ecPairing gas fuel HG HP HB HW HF al be ga de I0 Is a b c A B C
        [] (p_L1 p) 42 [p_L2 p; p_R1 p; p_R2 p; p_Epoch p; p_D1 p; p_D2 p] K HS Hs P eq_refl Hw ltac:(split; [discriminate|reflexivity]) ltac:(congruence) V) as U.
      cbn [app] in U. rewrite U. change (42 <? SNARK_SCALAR_FIELD) with true. cbv iota. tauto.
  - split; [discriminate|]. intros [Ac _]. discriminate (proj2 Y (conj Hr Ac)).
  - split; [discriminate|]. intros [Ac _]. discriminate (proj2 Y (conj Hr Ac)).
Qed.
(** For the set that GenTestSet makes nothing but the proof matters. *)
Lemma GenTestSet_public : forall poseidon sha is_prime fuel n setup m u, (forall x, is_prime x = true -> prime x) -> (2 <= n)%nat -> Z.of_nat n <= 2 ^ 31 ->
  GenTestSet poseidon sha is_prime fuel n setup m = Ret u -> canonical (PublicPart u) /\ prime (p_L1 (PublicPart u)).
Proof.
  intros poseidon sha is_prime fuel n setup m u HI H2 Hn E. assert (HI' : forall x, is_prime x = true -> 0 < x) by (intros x Hx; apply HI, prime_ge_2 in Hx; lia).
  rewrite GenTestSet_spec in E by assumption. unfold GetChallengeAndAppend, GetPrimeChallenge in E.
  destruct (FS_HashToPrime sha is_prime fuel (info (SetupTranscript setup 0 0 0 1000000)) _) as [l1| |] eqn:C1; cbn [bind] in E; try discriminate E.
  destruct (FS_HashToPrime sha is_prime fuel (info (Append (SetupTranscript setup 0 0 0 1000000) (dec l1))) _) as [l2| |] eqn:C2; cbn [bind] in E; try discriminate E.
  injection E as <-.
  apply fs_prime_ret in C1. apply fs_prime_ret in C2. destruct C1 as [C1 [s1 E1]]. destruct C2 as [C2 [s2 E2]].
  pose proof (wrap_max_range s1) as [R1 _]. pose proof (wrap_max_range s2) as [R2 _]. change (maxlength _) with Max252 in E1. change (maxlength _) with Max252 in E2.
  rewrite <- E1 in R1. rewrite <- E2 in R2. clear E1 E2. pose proof (HI' _ C1) as P1. pose proof (HI' _ C2) as P2. apply HI in C1.
  assert (L : 2 ^ 239 < fr_modulus) by reflexivity.
  destruct (test_circuit_facts poseidon n l1 l2 H2 Hn ltac:(lia) ltac:(lia)) as [F _]. split; [|exact C1].
  destruct F as [F _]. unfold canonical, components, PublicPart. cbn [p_L1 p_L2 p_R1 p_R2 p_Epoch p_D1 p_D2 u_L1 u_L2 u_R1 u_R2 u_Epoch u_D1 u_D2].
  rewrite Forall_forall in F |- *. intros x Hx. apply F. cbn [In] in Hx |- *. tauto.
Qed.
Theorem C97_made : forall (G H T : Type) add zero opp mul tadd tzero topp e dec1 dec2 ecAdd ecMul ecPairing gas fuel,
  groups G H T add zero opp tadd tzero topp e -> SolProofs.precompiled G H T add zero opp mul tadd tzero e dec1 dec2 ecAdd ecMul ecPairing ->
  bilinear G H T add tadd e -> give_words ecAdd ecMul -> (2 ^ 14 <= fuel)%nat ->
  forall al be ga de I0 Is a b c A B C rest,
  key_points G H dec1 dec2 al be ga de I0 Is -> Forall (separates G H T mul e ga) Is ->
  small_coords a b c -> proof_points G H dec1 dec2 a b c A B C ->
  forall poseidon sha is_prime f n setup m u, (forall x, is_prime x = true -> prime x) -> (2 <= n)%nat -> Z.of_nat n <= 2 ^ 31 ->
  GenTestSet poseidon sha is_prime f n setup m = Ret u ->
  (TestVerifyProof (deployed ecAdd ecMul ecPairing gas fuel) (WriteRawTo a b c ++ rest) (PublicPart u) = Ret true <->
   accepts G H T add mul tadd tzero e al be ga de I0 Is A B C (GenPublicWitness (PublicPart u))).
Proof.
  intros G H T add zero opp mul tadd tzero topp e dec1 dec2 ecAdd ecMul ecPairing gas fuel HG HP HB HW HF al be ga de I0 Is a b c A B C rest K HS Hs P
    poseidon sha is_prime f n setup m u HI H2 Hn Hu.
  destruct (GenTestSet_public _ _ _ _ _ _ _ _ HI H2 Hn Hu) as [HC Pr].
  destruct (C97_test G H T add zero opp mul tadd tzero topp e dec1 dec2 ecAdd ecMul ecPairing gas fuel HG HP HB HW HF al be ga de I0 Is a b c A B C (PublicPart u) rest K HS Hs P HC) as (r & -> & Hr).
  assert (N : p_L1 (PublicPart u) <> 42).
  { intros E. rewrite E in Pr. destruct (prime_divisors 42 Pr 2) as [D|[D|[D|D]]]; [exists 21; reflexivity|discriminate D..]. }
  split; [intros [= ->]; tauto|]. intros Ac. f_equal. tauto.
Qed.

(** ** C98: the contract and the program *)
(** The contract says yes exactly if the program does and every value is reduced: it refuses what the program accepts
    after reducing it. *)
Theorem C98_agree_partial : forall (G H T : Type) add zero opp mul tadd tzero topp e dec1 dec2 ecAdd ecMul ecPairing gas fuel,
  groups G H T add zero opp tadd tzero topp e -> SolProofs.precompiled G H T add zero opp mul tadd tzero e dec1 dec2 ecAdd ecMul ecPairing ->
  give_words ecAdd ecMul -> (2 ^ 14 <= fuel)%nat ->
  forall al be ga de I0 Is a b c A B C p, key_points G H dec1 dec2 al be ga de I0 Is -> small_coords a b c -> proof_points G H dec1 dec2 a b c A B C ->
  Forall word (components p) ->
  (canonical p -> (VerifyProof (deployed ecAdd ecMul ecPairing gas fuel) a b c (contract_test_input p) = Some true <->
     accepts G H T add mul tadd tzero e al be ga de I0 Is A B C (GenPublicWitness p))) /\
  (~ canonical p -> VerifyProof (deployed ecAdd ecMul ecPairing gas fuel) a b c (contract_test_input p) = None).
Proof.
  intros G H T add zero opp mul tadd tzero topp e dec1 dec2 ecAdd ecMul ecPairing gas fuel HG HP HW HF al be ga de I0 Is a b c A B C p K Hs P Hw. split.
  - intros HC. destruct (C58_contract_order_partial p HC) as (_ & <- & _). destruct (canonical_words p HC) as [_ Hr].
    rewrite (chain_yes G H T add zero opp mul tadd tzero topp e dec1 dec2 ecAdd ecMul ecPairing HG HP HW gas fuel HF al be ga de I0 Is a b c A B C (contract_test_input p) K Hs P eq_refl Hw). tauto.
  - intros N. destruct (small_words _ _ _ Hs) as (W1 & W2 & W3 & _). rewrite C97_call by first [assumption|reflexivity].
    destruct (verifyProof _ _ _ _ _ _ _ _) as [r|] eqn:V; [|reflexivity]. exfalso. apply N. apply verifyProof_some in V. destruct V as (_ & V & _).
    unfold canonical. change (contract_test_input p) with (components p) in V. apply Forall_forall. intros x Hx.
    rewrite Forall_forall in Hw, V. specialize (Hw x Hx). specialize (V x).
    assert (E : In x (map (fun x => x mod 2 ^ 256) (components p))).
    { apply in_map_iff. exists x. split; [apply Z.mod_small; exact Hw|exact Hx]. }
    specialize (V E). split; [apply Hw|exact V].
Qed.

(** ** A small world in which all the hypotheses hold: the integers modulo the order of the group, as both groups *)
Definition order : Z := SNARK_SCALAR_FIELD.
Definition zr : Type := {z : Z | (z mod order =? z) = true}.
Lemma mkr_ok : forall z, ((z mod order) mod order =? z mod order) = true.
Proof. intros z. rewrite Zmod_mod. apply Z.eqb_refl. Qed.
Definition mkr (z : Z) : zr := exist _ (z mod order) (mkr_ok z).
Definition val (a : zr) : Z := proj1_sig a.
Lemma zr_eq : forall a b : zr, val a = val b -> a = b.
Proof. intros [a Ha] [b Hb] E. cbn in E. subst b. f_equal. apply Eqdep_dec.UIP_dec, bool_dec. Qed.
Lemma val_mod : forall a, val a mod order = val a.
Proof. intros [a Ha]. now apply Z.eqb_eq. Qed.
Lemma mkr_eq : forall x y, mkr x = mkr y <-> x mod order = y mod order.
Proof. intros x y. split; [intros E; exact (f_equal val E)|intros E; apply zr_eq; exact E]. Qed.
Lemma mkr_val : forall a, mkr (val a) = a.
Proof. intros a. apply zr_eq. apply val_mod. Qed.
Lemma zr_ind : forall Q : zr -> Prop, (forall z, Q (mkr z)) -> forall a, Q a.
Proof. intros Q HQ a. rewrite <- mkr_val. apply HQ. Qed.
Definition zadd (a b : zr) : zr := mkr (val a + val b).
Definition zopp (a : zr) : zr := mkr (- val a).
Definition zmul (s : Z) (a : zr) : zr := mkr (s * val a).
Definition zpair (a b : zr) : zr := mkr (val a * val b).
Lemma zadd_mk : forall x y, zadd (mkr x) (mkr y) = mkr (x + y).
Proof. intros x y. apply mkr_eq. cbn [val mkr proj1_sig]. symmetry. apply Zplus_mod. Qed.
Lemma zopp_mk : forall x, zopp (mkr x) = mkr (- x).
Proof. intros x. apply mkr_eq. cbn [val mkr proj1_sig]. rewrite <- !Z.sub_0_l. apply Zminus_mod_idemp_r. Qed.
Lemma zmul_mk : forall s x, zmul s (mkr x) = mkr (s * x).
Proof. intros s x. apply mkr_eq. cbn [val mkr proj1_sig]. apply Zmult_mod_idemp_r. Qed.
Lemma zpair_mk : forall x y, zpair (mkr x) (mkr y) = mkr (x * y).
Proof. intros x y. apply mkr_eq. cbn [val mkr proj1_sig]. symmetry. apply Zmult_mod. Qed.
Lemma mkr_0 : forall x, mkr x = mkr 0 <-> (order | x).
Proof. intros x. rewrite mkr_eq, Zmod_0_l. split; [apply Z.mod_divide|intros D; now apply Z.mod_divide]; discriminate. Qed.
Lemma mkr_diff : forall x y, mkr x = mkr y <-> (order | x - y).
Proof.
  intros x y. rewrite mkr_eq. split.
  - intros E. apply Z.mod_divide; [discriminate|]. rewrite Zminus_mod, E, Z.sub_diag. reflexivity.
  - intros [k E]. replace x with (y + k * order) by lia. apply Z_mod_plus_full.
Qed.
Ltac zr_all := repeat match goal with a : zr |- _ => revert a; refine (zr_ind _ _); intro end; rewrite ?zadd_mk, ?zopp_mk, ?zmul_mk, ?zpair_mk, ?zadd_mk, ?zopp_mk.

(** points: a number stands with any ordinate in the lower half, its opposite with one in the upper half *)
Definition d1 (p : G1Point) : option Z :=
  if (X1 p =? 0) && (Y1 p =? 0) then Some 0
  else if (0 <? Y1 p) && (Y1 p <? PRIME_Q) then Some (if 2 * Y1 p <? PRIME_Q then X1 p else - X1 p) else None.
Definition zdec1 (p : G1Point) : option zr := option_map mkr (d1 p).
Definition zdec2 (p : G2Point) : option zr := Some (mkr (fst (X2 p))).
Definition zecAdd (p q : G1Point) : option G1Point :=
  match d1 p, d1 q with Some a, Some b => Some (G1 ((a + b) mod order) 1) | _, _ => None end.
Definition zecMul (p : G1Point) (s : Z) : option G1Point :=
  match d1 p with Some a => Some (G1 ((s * a) mod order) 1) | None => None end.
Fixpoint zsum (l : list (G1Point * G2Point)) : option Z :=
  match l with
  | [] => Some 0
  | (p, q) :: l => match d1 p, zsum l with Some a, Some s => Some (a * fst (X2 q) + s) | _, _ => None end
  end.
Definition zecPairing (l : list (G1Point * G2Point)) : option bool := option_map (fun s => s mod order =? 0) (zsum l).

Lemma z_groups : groups zr zr zr zadd (mkr 0) zopp zadd (mkr 0) zopp zpair.
Proof.
  constructor; intros; zr_all.
  - f_equal. ring.
  - f_equal. ring.
  - f_equal.
  - rewrite mkr_0, mkr_diff. rewrite Z.add_comm. reflexivity.
  - f_equal. ring.
Qed.
Lemma z_bilinear : bilinear zr zr zr zadd zadd zpair.
Proof.
  constructor; intros x y z; zr_all.
  - rewrite !mkr_diff. intros D. match goal with |- (_ | ?u) => match type of D with (_ | ?v) => replace u with v by ring end end. exact D.
  - rewrite !mkr_diff. intros D. match goal with |- (_ | ?u) => match type of D with (_ | ?v) => replace u with v by ring end end. exact D.
  - f_equal. ring.
Qed.
Lemma z_enc : forall x, zdec1 (G1 (x mod order) 1) = Some (mkr x).
Proof.
  intros x. unfold zdec1, d1. cbn [X1 Y1]. change (1 =? 0) with false. rewrite andb_false_r.
  change ((0 <? 1) && (1 <? PRIME_Q)) with true. cbv iota. change (2 * 1 <? PRIME_Q) with true. cbv iota. cbn [option_map]. f_equal. apply mkr_eq. apply Zmod_mod.
Qed.
Lemma q_odd : exists k, PRIME_Q = 2 * k + 1.
Proof. exists (PRIME_Q / 2). vm_compute. reflexivity. Qed.
Lemma d1_some : forall x y, 0 < y < PRIME_Q -> d1 (G1 x y) = Some (if 2 * y <? PRIME_Q then x else - x).
Proof.
  intros x y Hy. unfold d1. cbn [X1 Y1]. destruct (Z.eqb_spec y 0); [lia|]. rewrite andb_false_r.
  destruct (Z.ltb_spec 0 y); [|lia]. destruct (Z.ltb_spec y PRIME_Q); [|lia]. reflexivity.
Qed.
Lemma d1_inv : forall x y a, d1 (G1 x y) = Some a -> (x, y) <> (0, 0) -> 0 < y < PRIME_Q.
Proof.
  intros x y a E N. unfold d1 in E. cbn [X1 Y1] in E. destruct ((x =? 0) && (y =? 0)) eqn:Z0.
  - apply andb_prop in Z0. destruct Z0 as [Zx Zy]. apply Z.eqb_eq in Zx, Zy. subst. now contradiction N.
  - destruct (Z.ltb_spec 0 y), (Z.ltb_spec y PRIME_Q); cbn [andb] in E; try discriminate E. lia.
Qed.
Lemma some_inj : forall a b : Z, Some a = Some b -> a = b.
Proof. now intros a b [= ->]. Qed.
Lemma zdec1_some : forall p P, zdec1 p = Some P -> exists a, d1 p = Some a /\ P = mkr a.
Proof. intros p P E. unfold zdec1 in E. destruct (d1 p) as [a|]; [|discriminate E]. injection E as <-. now exists a. Qed.
Lemma z_precompiled : SolProofs.precompiled zr zr zr zadd (mkr 0) zopp zmul zadd (mkr 0) zpair zdec1 zdec2 zecAdd zecMul zecPairing.
Proof.
  constructor.
  - reflexivity.
  - intros x y P E N. apply zdec1_some in E. destruct E as (a & E & ->). pose proof (d1_inv _ _ _ E N) as Hy. split; [lia|]. intros _.
    rewrite d1_some in E by exact Hy. unfold zdec1. rewrite d1_some by lia. cbn [option_map]. rewrite zopp_mk. apply f_equal, f_equal. apply some_inj in E. subst a.
    destruct q_odd as [k K]. destruct (Z.ltb_spec (2 * y) PRIME_Q), (Z.ltb_spec (2 * (PRIME_Q - y)) PRIME_Q); lia.
  - rewrite zopp_mk. reflexivity.
  - intros x y P Hy E N. apply zdec1_some in E. destruct E as (a & E & _).
    assert (0 < PRIME_Q - y < PRIME_Q). { apply (d1_inv x _ a E). intros E2. apply (f_equal snd) in E2. cbn [snd] in E2. lia. }
    unfold zdec1. rewrite d1_some by lia. discriminate.
  - intros p q. unfold zecAdd. destruct (d1 p) as [a|] eqn:E1.
    + destruct (d1 q) as [b|] eqn:E2.
      * left. exists (mkr a), (mkr b), (G1 ((a + b) mod order) 1). unfold zdec1 at 1 2. rewrite E1, E2. repeat split. rewrite z_enc, zadd_mk. reflexivity.
      * right. split; [|reflexivity]. right. unfold zdec1. now rewrite E2.
    + right. split; [|reflexivity]. left. unfold zdec1. now rewrite E1.
  - intros p s _. unfold zecMul. destruct (d1 p) as [a|] eqn:E1.
    + left. exists (mkr a), (G1 ((s * a) mod order) 1). unfold zdec1 at 1. rewrite E1. repeat split. rewrite z_enc, zmul_mk. reflexivity.
    + right. split; [|reflexivity]. unfold zdec1. now rewrite E1.
  - intros l r. unfold zecPairing.
    assert (S1 : forall s, zsum l = Some s -> exists ps, Forall2 (fun pq PQ => zdec1 (fst pq) = Some (fst PQ) /\ zdec2 (snd pq) = Some (snd PQ)) l ps).
    { induction l as [|[p q] l IH]; intros s E; [exists []; constructor|]. cbn [zsum] in E. destruct (d1 p) as [a|] eqn:E1; [|discriminate E].
      destruct (zsum l) as [s'|]; [|discriminate E]. destruct (IH s' eq_refl) as [ps F]. exists ((mkr a, mkr (fst (X2 q))) :: ps).
      constructor; [|exact F]. cbn [fst snd]. unfold zdec1. rewrite E1. split; reflexivity. }
    assert (S2 : forall ps, Forall2 (fun pq PQ => zdec1 (fst pq) = Some (fst PQ) /\ zdec2 (snd pq) = Some (snd PQ)) l ps ->
      exists s, zsum l = Some s /\ fold_right (fun PQ acc => zadd (zpair (fst PQ) (snd PQ)) acc) (mkr 0) ps = mkr s).
    { clear S1. intros ps F. induction F as [|[p q] [P Q] l ps [E1 E2] F IH]; [exists 0; split; reflexivity|]. destruct IH as (s & E & F'). cbn [fst snd] in E1, E2.
      apply zdec1_some in E1. destruct E1 as (a & E1 & ->). injection E2 as <-. exists (a * fst (X2 q) + s). cbn [zsum fold_right fst snd]. rewrite E1, E, F', zpair_mk, zadd_mk. split; reflexivity. }
    assert (S3 : forall s, (s mod order =? 0) = true <-> mkr s = mkr 0) by (intros s; rewrite mkr_eq, Zmod_0_l; apply Z.eqb_eq).
    split.
    + intros E. destruct (zsum l) as [s|] eqn:Es; [|discriminate E]. injection E as <-. destruct (S1 s eq_refl) as [ps F]. exists ps. split; [exact F|].
      destruct (S2 ps F) as (s' & E' & ->). injection E' as <-. apply S3.
    + intros (ps & F & Hr). destruct (S2 ps F) as (s & -> & Ef). cbn [option_map]. f_equal. rewrite Ef in Hr. specialize (S3 s).
      destruct (s mod order =? 0), r; try reflexivity; exfalso; intuition discriminate.
Qed.
Lemma z_words : give_words zecAdd zecMul.
Proof.
  assert (W : forall x, word (x mod order)). { intros x. pose proof (Z.mod_pos_bound x order eq_refl). assert (order < 2 ^ 256) by reflexivity. unfold word. lia. }
  assert (W1 : word 1) by (split; [discriminate|reflexivity]).
  split.
  - intros p q r E. unfold zecAdd in E. destruct (d1 p); [|discriminate E]. destruct (d1 q); [|discriminate E]. injection E as <-. split; [apply W|exact W1].
  - intros p s r E. unfold zecMul in E. destruct (d1 p); [|discriminate E]. injection E as <-. split; [apply W|exact W1].
Qed.
(** the numbers of the deployed key *)
Definition z_al : zr := mkr (match d1 (alfa1 GnarkTest_vk) with Some a => a | None => 0 end).
Definition z_be : zr := mkr (fst (X2 (beta2 GnarkTest_vk))).
Definition z_ga : zr := mkr (fst (X2 (gamma2 GnarkTest_vk))).
Definition z_de : zr := mkr (fst (X2 (delta2 GnarkTest_vk))).
Definition z_ic : list Z := map (fun p => match d1 p with Some a => a | None => 0 end) (IC GnarkTest_vk).
Definition z_I0 : zr := mkr (hd 0 z_ic).
Definition z_Is : list zr := map mkr (tl z_ic).
Lemma z_key : key_points zr zr zdec1 zdec2 z_al z_be z_ga z_de z_I0 z_Is.
Proof.
  assert (D : forallb (fun p => match d1 p with Some _ => true | None => false end) (alfa1 GnarkTest_vk :: IC GnarkTest_vk) = true) by (vm_compute; reflexivity).
  assert (E : forall p, In p (alfa1 GnarkTest_vk :: IC GnarkTest_vk) -> zdec1 p = Some (mkr (match d1 p with Some a => a | None => 0 end))).
  { intros p Hp. rewrite forallb_forall in D. specialize (D p Hp). unfold zdec1. destruct (d1 p); [reflexivity|discriminate D]. }
  split; [apply E; left; reflexivity|]. do 3 (split; [reflexivity|]).
  change (z_I0 :: z_Is) with (map mkr z_ic). unfold z_ic. rewrite map_map.
  assert (E' : forall p, In p (IC GnarkTest_vk) -> zdec1 p = Some (mkr (match d1 p with Some a => a | None => 0 end))) by (intros p Hp; apply E; right; exact Hp).
  clear E D. revert E'. generalize (IC GnarkTest_vk). induction l as [|p l IH]; intros E; [constructor|]. cbn [map]. constructor; [apply E; left; reflexivity|].
  apply IH. intros q Hq. apply E. right. exact Hq.
Qed.
Lemma z_separates : Forall (separates zr zr zr zmul zpair z_ga) z_Is.
Proof.
  assert (D : forallb (fun x => Z.gcd order (x * fst (X2 (gamma2 GnarkTest_vk))) =? 1) (tl z_ic) = true) by (vm_compute; reflexivity).
  unfold z_Is. apply Forall_forall. intros P HP. apply in_map_iff in HP. destruct HP as (x & <- & Hx). rewrite forallb_forall in D. specialize (D x Hx). apply Z.eqb_eq in D.
  intros s t Hs Ht E. unfold z_ga in E. revert D E. generalize (fst (X2 (gamma2 GnarkTest_vk))). intros g D E. rewrite !zmul_mk, !zpair_mk, mkr_diff in E.
  replace (s * x * g - t * x * g) with ((x * g) * (s - t)) in E by ring. apply Z.gauss in E; [|exact D].
  destruct E as [k E]. fold order in Hs, Ht. assert (0 < order) by reflexivity. assert (k = 0) by nia. subst k. lia.
Qed.

(** In it: a proof for the seven values of a set, by solving the equation for A. *)
Definition z_info (l1 : Z) : PublicInfo := {| p_L1 := l1; p_L2 := 11; p_R1 := 1; p_R2 := 2; p_Epoch := 9; p_D1 := 3; p_D2 := 4 |}.
Definition z_rhs (xs : list Z) : Z :=
  (val z_al * val z_be + fold_right (fun ix acc => snd ix * fst ix + acc) (hd 0 z_ic) (combine (tl z_ic) xs) * val z_ga) mod order.
Definition z_a (l1 : Z) : Z * Z := (z_rhs (components (z_info l1)), 1).
Definition z_b : (Z * Z) * (Z * Z) := ((1, 0), (0, 0)).
Definition z_c : Z * Z := (0, 1).
Definition z_chain := deployed zecAdd zecMul zecPairing (fun _ => 50000) (2 ^ 14).
Lemma z_small : forall l1, small_coords (z_a l1) z_b z_c.
Proof.
  intros l1. assert (S : forall x, small (x mod order)).
  { intros x. pose proof (Z.mod_pos_bound x order eq_refl). assert (order < PRIME_Q) by reflexivity. unfold small. lia. }
  assert (S0 : small 0) by (split; [discriminate|reflexivity]). assert (S1 : small 1) by (split; [discriminate|reflexivity]).
  unfold small_coords, z_a, z_b, z_c, z_rhs. cbn [fst snd]. auto 10.
Qed.
Lemma z_points : forall l1, proof_points zr zr zdec1 zdec2 (z_a l1) z_b z_c (mkr (z_rhs (components (z_info l1)))) (mkr 1) (mkr 0).
Proof.
  intros l1. split; [|split; reflexivity]. unfold z_a, z_rhs. cbn [fst snd]. rewrite z_enc. f_equal. apply mkr_eq. symmetry. apply Zmod_mod.
Qed.
(** the test of the repository passes, and the call with the order of the other program is refused *)
Example C97_case : TestVerifyProof z_chain (WriteRawTo (z_a 7) z_b z_c ++ [1; 2; 3]) (z_info 7) = Ret true /\
  VerifyProof z_chain (z_a 7) z_b z_c (contract_input (z_info 7)) = Some false.
Proof.
  assert (HC : canonical (z_info 7)) by in_field_compute. split.
  - destruct (C97_test _ _ _ _ _ _ _ _ _ _ _ _ _ _ _ _ (fun _ => 50000) (2 ^ 14) z_groups z_precompiled z_bilinear z_words (le_n _) _ _ _ _ _ _ _ _ _ _ _ _
      (z_info 7) [1; 2; 3] z_key z_separates (z_small 7) (z_points 7) HC) as (r & E & Hr).
    unfold z_chain. rewrite E. f_equal. apply (proj2 Hr). split; [apply zr_eq; vm_compute; reflexivity|discriminate].
  - destruct (small_words _ _ _ (z_small 7)) as (W1 & W2 & W3 & _). unfold z_chain.
    rewrite C97_call by first [exact z_words|exact (le_n _)|assumption|reflexivity]. vm_compute. reflexivity.
Qed.
(** with the challenge 42 the test fails although the contract accepts *)
Example C97_case_42 : TestVerifyProof z_chain (WriteRawTo (z_a 42) z_b z_c) (z_info 42) = Ret false /\
  VerifyProof z_chain (z_a 42) z_b z_c (contract_test_input (z_info 42)) = Some true.
Proof.
  assert (HC : canonical (z_info 42)) by in_field_compute. split.
  - destruct (C97_test _ _ _ _ _ _ _ _ _ _ _ _ _ _ _ _ (fun _ => 50000) (2 ^ 14) z_groups z_precompiled z_bilinear z_words (le_n _) _ _ _ _ _ _ _ _ _ _ _ _
      (z_info 42) [] z_key z_separates (z_small 42) (z_points 42) HC) as (r & E & Hr).
    rewrite app_nil_r in E. unfold z_chain. rewrite E. f_equal. destruct r; [|reflexivity]. destruct (proj1 Hr eq_refl) as [_ N]. now contradiction N.
  - assert (W : Forall word (components (z_info 42))) by exact (proj1 (canonical_words _ HC)).
    refine (proj2 (proj1 (C98_agree_partial _ _ _ _ _ _ _ _ _ _ _ _ _ _ _ _ (fun _ => 50000) (2 ^ 14) z_groups z_precompiled z_words (le_n _) _ _ _ _ _ _ _ _ _ _ _ _
      (z_info 42) z_key (z_small 42) (z_points 42) W) HC) _).
    apply zr_eq. vm_compute. reflexivity.
Qed.
(** the hypotheses of the theorems hold, and the equation too *)
Example C97_hypotheses : groups zr zr zr zadd (mkr 0) zopp zadd (mkr 0) zopp zpair /\
  SolProofs.precompiled zr zr zr zadd (mkr 0) zopp zmul zadd (mkr 0) zpair zdec1 zdec2 zecAdd zecMul zecPairing /\
  bilinear zr zr zr zadd zadd zpair /\ give_words zecAdd zecMul /\ key_points zr zr zdec1 zdec2 z_al z_be z_ga z_de z_I0 z_Is /\
  Forall (separates zr zr zr zmul zpair z_ga) z_Is /\ small_coords (z_a 7) z_b z_c /\
  proof_points zr zr zdec1 zdec2 (z_a 7) z_b z_c (mkr (z_rhs (components (z_info 7)))) (mkr 1) (mkr 0) /\ canonical (z_info 7) /\
  accepts zr zr zr zadd zmul zadd (mkr 0) zpair z_al z_be z_ga z_de z_I0 z_Is (mkr (z_rhs (components (z_info 7)))) (mkr 1) (mkr 0) (GenPublicWitness (z_info 7)).
Proof.
  pose proof z_groups. pose proof z_precompiled. pose proof z_bilinear. pose proof z_words. pose proof z_key. pose proof z_separates. pose proof (z_small 7). pose proof (z_points 7).
  do 8 (split; [assumption|]). split; [in_field_compute|]. apply zr_eq. vm_compute. reflexivity.
Qed.
(** The contract refuses a value that is not reduced, the program reduces it and accepts. *)
Theorem C98_agree_refuted : exists (G H T : Type) add zero opp mul tadd tzero topp e dec1 dec2 ecAdd ecMul ecPairing gas al be ga de I0 Is a b c A B C p,
  groups G H T add zero opp tadd tzero topp e /\ SolProofs.precompiled G H T add zero opp mul tadd tzero e dec1 dec2 ecAdd ecMul ecPairing /\
  bilinear G H T add tadd e /\ give_words ecAdd ecMul /\ key_points G H dec1 dec2 al be ga de I0 Is /\ Forall (separates G H T mul e ga) Is /\
  small_coords a b c /\ proof_points G H dec1 dec2 a b c A B C /\ Forall word (components p) /\
  accepts G H T add mul tadd tzero e al be ga de I0 Is A B C (GenPublicWitness p) /\
  forall fuel, (2 ^ 14 <= fuel)%nat -> VerifyProof (deployed ecAdd ecMul ecPairing gas fuel) a b c (contract_test_input p) = None.
Proof.
  exists zr, zr, zr, zadd, (mkr 0), zopp, zmul, zadd, (mkr 0), zopp, zpair, zdec1, zdec2, zecAdd, zecMul, zecPairing, (fun _ => 50000), z_al, z_be, z_ga, z_de, z_I0, z_Is,
    (z_a 7), z_b, z_c, (mkr (z_rhs (components (z_info 7)))), (mkr 1), (mkr 0), (z_info (7 + order)).
  pose proof z_groups as Z1. pose proof z_precompiled as Z2. pose proof z_bilinear as Z3. pose proof z_words as Z4. pose proof z_key as Z5. pose proof z_separates as Z6.
  pose proof (z_small 7) as Z7. pose proof (z_points 7) as Z8.
  assert (W : Forall word (components (z_info (7 + order)))) by (repeat constructor; first [discriminate|reflexivity]).
  do 8 (split; [assumption|]). split; [exact W|]. split; [apply zr_eq; vm_compute; reflexivity|].
  intros fuel HF. refine (proj2 (C98_agree_partial _ _ _ _ _ _ _ _ _ _ _ _ _ _ _ _ (fun _ => 50000) fuel Z1 Z2 Z4 HF _ _ _ _ _ _ _ _ _ _ _ _ _ Z5 Z7 Z8 W) _).
  intros HC. inversion_clear HC as [|? ? I1 _]. destruct I1 as [_ I1]. vm_compute in I1. discriminate I1.
Qed.
Print Assumptions C97_bytes. Print Assumptions C97_call. Print Assumptions C97_unique. Print Assumptions C97_test. Print Assumptions C97_made.
Print Assumptions C98_agree_partial. Print Assumptions C98_agree_refuted. Print Assumptions C97_case. Print Assumptions C97_hypotheses.
