(** Proofs about the verifier contracts, and the curve arithmetic used to check their constants. *)
From Coq Require Import ZArith Bool List Lia.
From Verif Require Import GoBig SolModel.
Import ListNotations.
Open Scope Z_scope.

Lemma require_some : forall c u, require c = Some u -> c = true.
Proof. intros [] u H; [reflexivity|discriminate]. Qed.
Lemma obind_some : forall A B (x : option A) (f : A -> option B) b, obind x f = Some b -> exists a, x = Some a /\ f a = Some b.
Proof. intros A B [a|] f b H; [exists a; auto|discriminate]. Qed.

Lemma f2_length : forall A B (R : A -> B -> Prop) l m, Forall2 R l m -> length l = length m.
Proof. intros A B R l m F. induction F; cbn [length]; congruence. Qed.

Definition coords_ok (a : Z * Z) (b : (Z * Z) * (Z * Z)) (c : Z * Z) : Prop :=
  fst a < PRIME_Q /\ snd a < PRIME_Q /\ fst (fst b) < PRIME_Q /\ snd (fst b) < PRIME_Q /\
  fst (snd b) < PRIME_Q /\ snd (snd b) < PRIME_Q /\ fst c < PRIME_Q /\ snd c < PRIME_Q.

Lemma input_loop_some : forall ecAdd ecMul ic input i v r, input_loop ecAdd ecMul ic i input v = Some r ->
  Forall (fun x => x < SNARK_SCALAR_FIELD) input.
Proof.
  intros ecAdd ecMul ic. induction input as [|x input IH]; intros i v r H; [constructor|]. cbn [input_loop] in H.
  apply obind_some in H. destruct H as (u & H1 & H). apply require_some in H1. apply Z.ltb_lt in H1. constructor; [exact H1|].
  apply obind_some in H. destruct H as (p & _ & H). apply obind_some in H. destruct H as (q & _ & H).
  apply obind_some in H. destruct H as (w & _ & H). eapply IH. exact H.
Qed.
Lemma verifyProof_some : forall ecAdd ecMul ecPairing vk a b c input r,
  verifyProof ecAdd ecMul ecPairing vk a b c input = Some r ->
  coords_ok a b c /\ Forall (fun x => x < SNARK_SCALAR_FIELD) input /\
  exists x0 ic0 x, input_loop ecAdd ecMul (IC vk) 0 input (G1 0 0) = Some x0 /\ nth_error (IC vk) 0 = Some ic0 /\ ecAdd x0 ic0 = Some x /\
    ecPairing [(negate (G1 (fst a) (snd a)), G2 (fst b) (snd b)); (alfa1 vk, beta2 vk); (x, gamma2 vk); (G1 (fst c) (snd c), delta2 vk)] = Some r.
Proof.
  intros ecAdd ecMul ecPairing vk a b c input r H. unfold verifyProof in H. cbn [X1 Y1 X2 Y2] in H.
  do 8 (apply obind_some in H; let u := fresh "u" in let H' := fresh "H'" in destruct H as (u & H' & H); apply require_some in H'; apply Z.ltb_lt in H').
  apply obind_some in H. destruct H as (x0 & E1 & H). apply obind_some in H. destruct H as (ic0 & E2 & H).
  apply obind_some in H. destruct H as (x & E3 & H). split; [unfold coords_ok; tauto|]. split; [eapply input_loop_some; exact E1|].
  exists x0, ic0, x. auto.
Qed.
Lemma verifyProof_intro : forall ecAdd ecMul ecPairing vk a b c input r x0 ic0 x, coords_ok a b c ->
  input_loop ecAdd ecMul (IC vk) 0 input (G1 0 0) = Some x0 -> nth_error (IC vk) 0 = Some ic0 -> ecAdd x0 ic0 = Some x ->
  ecPairing [(negate (G1 (fst a) (snd a)), G2 (fst b) (snd b)); (alfa1 vk, beta2 vk); (x, gamma2 vk); (G1 (fst c) (snd c), delta2 vk)] = Some r ->
  verifyProof ecAdd ecMul ecPairing vk a b c input = Some r.
Proof.
  intros ecAdd ecMul ecPairing vk a b c input r x0 ic0 x (C1 & C2 & C3 & C4 & C5 & C6 & C7 & C8) E1 E2 E3 E4. unfold verifyProof. cbn [X1 Y1 X2 Y2].
  rewrite (proj2 (Z.ltb_lt _ _) C1), (proj2 (Z.ltb_lt _ _) C2), (proj2 (Z.ltb_lt _ _) C3), (proj2 (Z.ltb_lt _ _) C4),
    (proj2 (Z.ltb_lt _ _) C5), (proj2 (Z.ltb_lt _ _) C6), (proj2 (Z.ltb_lt _ _) C7), (proj2 (Z.ltb_lt _ _) C8).
  cbn [require obind]. rewrite E1. cbn [obind]. rewrite E2. cbn [obind]. unfold plus. rewrite E3. cbn [obind]. exact E4.
Qed.

(** ** The equation checked, for any groups and pairing behind the precompiled contracts *)
Section Groth16.
Variables G H T : Type.
Variable add : G -> G -> G.
Variable zero : G.
Variable opp : G -> G.
Variable mul : Z -> G -> G.
Variable tadd : T -> T -> T.
Variable tzero : T.
Variable topp : T -> T.
Variable e : G -> H -> T.
Variable dec1 : G1Point -> option G.
Variable dec2 : G2Point -> option H.
Variable ecAdd : G1Point -> G1Point -> option G1Point.
Variable ecMul : G1Point -> Z -> option G1Point.
Variable ecPairing : list (G1Point * G2Point) -> option bool.

(** what the groups are *)
Record groups : Prop := {
  g_comm : forall a b, add a b = add b a;
  g_assoc : forall a b c, add a (add b c) = add (add a b) c;
  g_zero : forall a, add zero a = a;
  t_opp : forall a b, tadd (topp a) b = tzero <-> b = a;
  e_opp : forall a b, e (opp a) b = topp (e a b) }.
(** what the precompiled contracts do (EIP-196, EIP-197) *)
Record precompiled : Prop := {
  d_zero : dec1 (G1 0 0) = Some zero;
  d_neg : forall x y P, dec1 (G1 x y) = Some P -> (x, y) <> (0, 0) -> 0 < y /\ (y < PRIME_Q -> dec1 (G1 x (PRIME_Q - y)) = Some (opp P));
  d_opp0 : opp zero = zero;
  d_neg_inv : forall x y P, 0 <= y < PRIME_Q -> dec1 (G1 x (PRIME_Q - y)) = Some P -> (x, y) <> (0, 0) -> dec1 (G1 x y) <> None;
  p_add : forall p q, (exists P Q r, dec1 p = Some P /\ dec1 q = Some Q /\ ecAdd p q = Some r /\ dec1 r = Some (add P Q)) \/
                      ((dec1 p = None \/ dec1 q = None) /\ ecAdd p q = None);
  p_mul : forall p s, 0 <= s -> (exists P r, dec1 p = Some P /\ ecMul p s = Some r /\ dec1 r = Some (mul s P)) \/ (dec1 p = None /\ ecMul p s = None);
  p_pair : forall l r, ecPairing l = Some r <->
     exists ps, Forall2 (fun pq PQ => dec1 (fst pq) = Some (fst PQ) /\ dec2 (snd pq) = Some (snd PQ)) l ps /\
       (r = true <-> fold_right (fun PQ acc => tadd (e (fst PQ) (snd PQ)) acc) tzero ps = tzero) }.

(** IC_0 + sum of x_i IC_(i+1) *)
Definition combination (I0 : G) (Is : list G) (xs : list Z) : G :=
  fold_right (fun ix acc => add (mul (snd ix) (fst ix)) acc) I0 (combine Is xs).

Hypothesis HG : groups.
Hypothesis HP : precompiled.

Lemma loop_spec : forall ic Is, Forall2 (fun p P => dec1 p = Some P) ic Is ->
  forall input i v V, Forall (fun x => 0 <= x < SNARK_SCALAR_FIELD) input -> dec1 v = Some V -> (i + 1 + length input <= length ic)%nat ->
  exists r, input_loop ecAdd ecMul ic i input v = Some r /\
    dec1 r = Some (fold_right (fun ix acc => add (mul (snd ix) (fst ix)) acc) V (combine (skipn (i + 1) Is) input)).
Proof.
  intros ic Is F2. induction input as [|x input IH]; intros i v V Hx Hv Hl.
  - exists v. split; [reflexivity|]. destruct (skipn (i + 1) Is); exact Hv.
  - inversion_clear Hx as [|? ? Hx1 Hx2]. cbn [length] in Hl. cbn [input_loop].
    destruct (Z.ltb_spec x SNARK_SCALAR_FIELD); [|lia]. cbn [require obind].
    assert (EN : exists p P, nth_error ic (i + 1) = Some p /\ dec1 p = Some P /\ skipn (i + 1) Is = P :: skipn (S (i + 1)) Is).
    { clear -F2 Hl. assert (Hi : (i + 1 < length ic)%nat) by lia. clear Hl. revert Hi. generalize (i + 1)%nat as k. clear i.
      induction F2 as [|p P ic Is Hp F2 IH]; intros k Hk; [cbn in Hk; lia|]. destruct k as [|k].
      - exists p, P. cbn. auto.
      - cbn [length] in Hk. destruct (IH k ltac:(lia)) as (p' & P' & E1 & E2 & E3). exists p', P'. split; [exact E1|]. split; [exact E2|exact E3]. }
    destruct EN as (p & P & EN & Ep & Es). rewrite EN. cbn [obind]. unfold scalar_mul, plus.
    destruct (p_mul HP p x ltac:(lia)) as [(P' & q & D1 & D2 & D3)|[D1 _]]; [|congruence].
    rewrite D2. cbn [obind]. rewrite Ep in D1. injection D1 as <-.
    destruct (p_add HP v q) as [(V' & Q' & w & A1 & A2 & A3 & A4)|[[A1|A1] _]]; [|congruence|congruence].
    rewrite A3. cbn [obind]. rewrite Hv in A1. injection A1 as <-. rewrite D3 in A2. injection A2 as <-.
    destruct (IH (i + 1)%nat w (add V (mul x P)) Hx2 A4 ltac:(lia)) as (r & R1 & R2). exists r. split; [exact R1|]. rewrite R2. f_equal.
    rewrite Es. cbn [combine fold_right fst snd]. replace (i + 1 + 1)%nat with (S (i + 1)) by lia.
    set (L := combine (skipn (S (i + 1)) Is) input). clearbody L. clear -HG. induction L as [|y L IHL]; cbn [fold_right].
    + apply (g_comm HG).
    + rewrite IHL. rewrite !(g_assoc HG). f_equal. apply (g_comm HG).
Qed.

Lemma negate_dec : forall x y P, 0 <= y < PRIME_Q -> dec1 (G1 x y) = Some P -> dec1 (negate (G1 x y)) = Some (opp P).
Proof.
  intros x y P Hy HD. unfold negate. cbn [X1 Y1]. destruct (Z.eqb_spec x 0), (Z.eqb_spec y 0); cbn [andb].
  - subst. rewrite (d_zero HP) in HD. injection HD as <-. rewrite (d_opp0 HP). apply (d_zero HP).
  - rewrite Z.mod_small by lia. apply (d_neg HP); [exact HD|congruence|lia].
  - destruct (d_neg HP _ _ _ HD) as [? _]; [congruence|lia].
  - rewrite Z.mod_small by lia. apply (d_neg HP); [exact HD|congruence|lia].
Qed.
Lemma negate_dec_inv : forall x y Q, 0 <= y < PRIME_Q -> dec1 (negate (G1 x y)) = Some Q -> exists P, dec1 (G1 x y) = Some P.
Proof.
  intros x y Q Hy HD. unfold negate in HD. cbn [X1 Y1] in HD.
  destruct (dec1 (G1 x y)) as [P|] eqn:E; [eauto|]. exfalso.
  destruct (Z.eqb_spec x 0), (Z.eqb_spec y 0); cbn [andb] in HD.
  - subst. rewrite (d_zero HP) in E. discriminate.
  - rewrite Z.mod_small in HD by lia. apply (d_neg_inv HP _ _ _ Hy HD); [congruence|exact E].
  - rewrite Z.mod_small in HD by lia. apply (d_neg_inv HP _ _ _ Hy HD); [congruence|exact E].
  - rewrite Z.mod_small in HD by lia. apply (d_neg_inv HP _ _ _ Hy HD); [congruence|exact E].
Qed.

Lemma combination_dec : forall vk I0 Is input, Forall2 (fun p P => dec1 p = Some P) (IC vk) (I0 :: Is) -> length input = length Is ->
  Forall (fun x => 0 <= x) input -> Forall (fun x => x < SNARK_SCALAR_FIELD) input ->
  exists x0 ic0 x, input_loop ecAdd ecMul (IC vk) 0 input (G1 0 0) = Some x0 /\
     nth_error (IC vk) 0 = Some ic0 /\ ecAdd x0 ic0 = Some x /\ dec1 x = Some (combination I0 Is input).
Proof.
  intros vk I0 Is input DI HL Hpos Hx. assert (Hx' : Forall (fun x => 0 <= x < SNARK_SCALAR_FIELD) input) by (rewrite Forall_forall in *; intros y Hy; split; auto).
  assert (LI : length (IC vk) = S (length Is)) by exact (f2_length _ _ _ _ _ DI).
  destruct (loop_spec _ _ DI input 0 (G1 0 0) zero Hx' (d_zero HP) ltac:(lia)) as (x0 & L1 & L2).
  inversion DI as [|ic0 ? ics ? D0 D1 E1 E2]. exists x0, ic0.
  destruct (p_add HP x0 ic0) as [(V' & Q' & w & A1 & A2 & A3 & A4)|[[A1|A1] _]]; [|congruence|congruence].
  exists w. split; [rewrite E1; exact L1|]. split; [reflexivity|]. split; [exact A3|]. rewrite A4. f_equal.
  rewrite L2 in A1. injection A1 as <-. rewrite D0 in A2. injection A2 as <-. cbn [skipn Nat.add]. unfold combination.
  set (L := combine Is input). clearbody L. clear -HG. induction L as [|y L IHL]; cbn [fold_right].
  - apply (g_zero HG).
  - rewrite <- IHL. rewrite (g_assoc HG). reflexivity.
Qed.

(** with valid points and inputs in range there is an answer, the truth of the equation *)
Lemma verifyProof_answer : forall vk al be ga de I0 Is a b c input A B C r,
  dec1 (alfa1 vk) = Some al -> dec2 (beta2 vk) = Some be -> dec2 (gamma2 vk) = Some ga -> dec2 (delta2 vk) = Some de ->
  Forall2 (fun p P => dec1 p = Some P) (IC vk) (I0 :: Is) -> length input = length Is ->
  Forall (fun x => 0 <= x) input -> 0 <= snd a ->
  coords_ok a b c -> Forall (fun x => x < SNARK_SCALAR_FIELD) input ->
  dec1 (G1 (fst a) (snd a)) = Some A -> dec2 (G2 (fst b) (snd b)) = Some B -> dec1 (G1 (fst c) (snd c)) = Some C ->
  (r = true <-> e A B = tadd (e al be) (tadd (e (combination I0 Is input) ga) (tadd (e C de) tzero))) ->
  verifyProof ecAdd ecMul ecPairing vk a b c input = Some r.
Proof.
  intros vk al be ga de I0 Is a b c input A B C r Dal Dbe Dga Dde DI HL Hpos Ha HC HI DA DB DC HE.
  destruct (combination_dec _ _ _ _ DI HL Hpos HI) as (x0 & ic0 & x & F1 & F2 & F3 & F4).
  apply (verifyProof_intro _ _ _ _ _ _ _ _ _ x0 ic0 x HC F1 F2 F3). apply (p_pair HP).
  exists [(opp A, B); (al, be); (combination I0 Is input, ga); (C, de)]. split.
  - repeat constructor; cbn [fst snd]; auto. apply negate_dec; [destruct HC as (_ & HC & _); lia|exact DA].
  - cbn [fold_right fst snd]. rewrite HE. rewrite (e_opp HG). rewrite (t_opp HG). split; intros E; symmetry; exact E.
Qed.

Lemma verifyProof_equation : forall vk al be ga de I0 Is a b c input,
  dec1 (alfa1 vk) = Some al -> dec2 (beta2 vk) = Some be -> dec2 (gamma2 vk) = Some ga -> dec2 (delta2 vk) = Some de ->
  Forall2 (fun p P => dec1 p = Some P) (IC vk) (I0 :: Is) -> length input = length Is ->
  Forall (fun x => 0 <= x) input -> 0 <= snd a ->
  (verifyProof ecAdd ecMul ecPairing vk a b c input = Some true <->
   coords_ok a b c /\ Forall (fun x => x < SNARK_SCALAR_FIELD) input /\
   exists A B C, dec1 (G1 (fst a) (snd a)) = Some A /\ dec2 (G2 (fst b) (snd b)) = Some B /\ dec1 (G1 (fst c) (snd c)) = Some C /\
     e A B = tadd (e al be) (tadd (e (combination I0 Is input) ga) (tadd (e C de) tzero))).
Proof.
  intros vk al be ga de I0 Is a b c input Dal Dbe Dga Dde DI HL Hpos Ha.
  pose proof (combination_dec vk I0 Is input DI HL Hpos) as X.
  split.
  - intros HV. apply verifyProof_some in HV. destruct HV as (HC & HI & x0 & ic0 & x & E1 & E2 & E3 & E4). split; [exact HC|]. split; [exact HI|].
    destruct (X HI) as (x0' & ic0' & x' & F1 & F2 & F3 & F4). rewrite E1 in F1. injection F1 as <-. rewrite E2 in F2. injection F2 as <-. rewrite E3 in F3. injection F3 as <-.
    apply (p_pair HP) in E4. destruct E4 as (ps & F & HT).
    inversion F as [|? [A' B'] ? ps1 [P1 P2] F' Z1 Z2]; subst. inversion F' as [|? [a1 b1] ? ps2 [P3 P4] F'' Z1 Z2]; subst.
    inversion F'' as [|? [x1 g1] ? ps3 [P5 P6] F''' Z1 Z2]; subst. inversion F''' as [|? [C' d1] ? ps4 [P7 P8] F'''' Z1 Z2]; subst. inversion F''''; subst.
    cbn [fst snd fold_right] in *. rewrite Dal in P3. injection P3 as <-. rewrite Dbe in P4. injection P4 as <-.
    rewrite F4 in P5. injection P5 as <-. rewrite Dga in P6. injection P6 as <-. rewrite Dde in P8. injection P8 as <-.
    destruct (negate_dec_inv (fst a) (snd a) A') as [A HA]; [destruct HC as (_ & HC & _); lia|exact P1|].
    exists A, B', C'. repeat split; auto. pose proof (negate_dec (fst a) (snd a) A ltac:(destruct HC as (_ & HC & _); lia) HA) as ND.
    rewrite P1 in ND. injection ND as ->. destruct HT as [HT _]. specialize (HT eq_refl). rewrite (e_opp HG) in HT. symmetry. now apply (t_opp HG).
  - intros (HC & HI & A & B & C & DA & DB & DC & HE).
    apply (verifyProof_answer vk al be ga de I0 Is a b c input A B C true); auto. split; auto.
Qed.
End Groth16.

(** ** The curves, to check the constants *)
Definition on_g1 (p : G1Point) : bool :=
  (0 <=? X1 p) && (X1 p <? PRIME_Q) && (0 <=? Y1 p) && (Y1 p <? PRIME_Q) && ((Y1 p * Y1 p - (X1 p * X1 p * X1 p + 3)) mod PRIME_Q =? 0).
(** Fp2 = Fp[u]/(u^2+1); the pair (i, r) is i u + r, as in the contract *)
Definition f2 := (Z * Z)%type.
Definition f2_add (a b : f2) : f2 := ((fst a + fst b) mod PRIME_Q, (snd a + snd b) mod PRIME_Q).
Definition f2_mul (a b : f2) : f2 :=
  ((fst a * snd b + snd a * fst b) mod PRIME_Q, (snd a * snd b - fst a * fst b) mod PRIME_Q).
Definition f2_eqb (a b : f2) : bool := (fst a =? fst b) && (snd a =? snd b).
Definition canonical2 (a : f2) : bool := (0 <=? fst a) && (fst a <? PRIME_Q) && (0 <=? snd a) && (snd a <? PRIME_Q).
(** the twist y^2 = x^3 + 3/(9+u), with the denominator cleared *)
Definition on_twist (p : G2Point) : bool :=
  canonical2 (X2 p) && canonical2 (Y2 p) &&
  f2_eqb (f2_mul (1, 9) (f2_mul (Y2 p) (Y2 p))) (f2_add (f2_mul (1, 9) (f2_mul (X2 p) (f2_mul (X2 p) (X2 p)))) (0, 3)).
Definition key_ok (vk : VerifyingKey) : bool :=
  on_g1 (alfa1 vk) && forallb on_g1 (IC vk) && forallb on_twist [beta2 vk; gamma2 vk; delta2 vk].
