(** Theorems for property C113: the time the membership functions take.

    The comments of ProveMembership (accumulator.go:99), ProveMembershipSingleThreadWithRandomizer (72) and the parallel
    functions (concurrent.go:46, 100, 173, 228, 286) say "in time O(nlog(n))". *)
From Coq Require Import ZArith Bool Lia List ZifyNat.
From Verif Require Import GoBig GoBigFacts AccModel AccFacts AccProofs Spec ForkJoin ParModel PropertiesGoroutines CostModel.
Import ListNotations.
Open Scope Z_scope.

(** ** What is counted *)
Definition total (w : op -> Z) (l : list op) : Z := fold_right (fun o s => w o + s) 0 l.
Definition exps (o : op) : Z := match o with Exp _ => 1 | Mul _ _ => 0 end.
(** the bits of the exponents: the squarings modulo N if every exponentiation is done on its own *)
Definition exp_bits (o : op) : Z := match o with Exp e => bit_len e | Mul _ _ => 0 end.
Definition muls (o : op) : Z := match o with Mul _ _ => 1 | Exp _ => 0 end.
(** bits of the integer products *)
Definition mul_bits (o : op) : Z := match o with Mul a b => bit_len (a * b) | Exp _ => 0 end.

(** n elements of at most b bits *)
Definition affordable (b n : Z) (ops : list op) : Prop :=
  let l := Z.log2_up n in
  2 * total exp_bits ops <= 3 * b * n * l /\
  total exps ops <= 2 * (n - 1) /\
  total muls ops <= 2 * n * l /\
  2 * total mul_bits ops <= b * n * (l * l + 4 * l).
Definition sized (b : Z) (set : list Z) : Prop := Forall (fun x => 0 <= x < 2 ^ b) set.

(** ** Bits *)
Lemma total_app : forall w l l', total w (l ++ l') = total w l + total w l'.
Proof. intros w l l'. induction l as [|o l IH]; [reflexivity|]. cbn [app]. unfold total in *. cbn [fold_right]. lia. Qed.
Lemma total_cons : forall w o l, total w (o :: l) = w o + total w l.
Proof. reflexivity. Qed.
Lemma total_nil : forall w, total w [] = 0.
Proof. reflexivity. Qed.
Lemma bit_len_mul : forall a b, bit_len (a * b) <= bit_len a + bit_len b.
Proof.
  intros a b. pose proof (bit_len_nonneg a). pose proof (bit_len_nonneg b). unfold bit_len at 1. destruct (Z.eqb_spec (a * b) 0) as [|Hz]; [lia|].
  unfold bit_len. destruct (Z.eqb_spec a 0) as [->|Ha]; [lia|]. destruct (Z.eqb_spec b 0) as [->|Hb]; [lia|].
  rewrite Z.abs_mul. pose proof (Z.log2_mul_above (Z.abs a) (Z.abs b) ltac:(lia) ltac:(lia)). lia.
Qed.
Lemma bit_len_small : forall b x, 0 <= b -> 0 <= x < 2 ^ b -> bit_len x <= b.
Proof. intros b x Hb Hx. apply bit_len_le_iff; lia. Qed.
Lemma bit_len_product : forall b l, 0 <= b -> sized b l -> l <> [] -> bit_len (product l) <= b * Z.of_nat (length l).
Proof.
  intros b l Hb H. induction H as [|x l Hx H IH]; intros Hne; [congruence|]. rewrite product_cons. cbn [length].
  pose proof (bit_len_small b x Hb Hx). destruct l as [|y l]; [unfold product; cbn [fold_right length]; rewrite Z.mul_1_r; lia|].
  specialize (IH ltac:(discriminate)). pose proof (bit_len_mul x (product (y :: l))). lia.
Qed.
Lemma sized_slice : forall b l i j, sized b l -> sized b (slice l i j).
Proof. intros. now apply slice_Forall. Qed.
Lemma sized_nonneg : forall b l, sized b l -> Forall (fun x => 0 <= x) l.
Proof. intros b l H. eapply Forall_impl; [|exact H]. cbn. lia. Qed.
Lemma log2_up_pow : forall n, 1 <= n -> n <= 2 ^ Z.log2_up n.
Proof. intros n Hn. destruct (Z.eq_dec n 1) as [->|]; [reflexivity|]. pose proof (Z.log2_up_spec n ltac:(lia)). lia. Qed.
Lemma log2_up_le : forall n j, 0 <= j -> n <= 2 ^ j -> Z.log2_up n <= j.
Proof. intros n j Hj H. rewrite <- (Z.log2_up_pow2 j Hj). now apply Z.log2_up_le_mono. Qed.
Lemma log2_up_quarter : forall n m, 4 <= n -> 4 * m <= n + 3 -> Z.log2_up m <= Z.log2_up n - 2.
Proof.
  intros n m Hn Hm. destruct (Z.eq_dec n 4) as [->|]; [rewrite (Z.log2_up_eqn0 m) by lia; cbn; lia|]. pose proof (log2_up_pow n ltac:(lia)) as P.
  assert (3 <= Z.log2_up n) by (change 3 with (Z.log2_up 5); apply Z.log2_up_le_mono; lia).
  apply log2_up_le; [lia|]. assert (E : 2 ^ Z.log2_up n = 4 * 2 ^ (Z.log2_up n - 2)).
  { change 4 with (2 ^ 2). rewrite <- Z.pow_add_r by lia. f_equal. lia. }
  lia.
Qed.
Lemma log2_up_half : forall n m, 2 < n -> 2 * m <= n + 1 -> Z.log2_up m <= Z.log2_up n - 1.
Proof.
  intros n m Hn Hm. pose proof (log2_up_pow n ltac:(lia)) as P.
  assert (2 <= Z.log2_up n) by (change 2 with (Z.log2_up 3); apply Z.log2_up_le_mono; lia).
  apply log2_up_le; [lia|]. assert (E : 2 ^ Z.log2_up n = 2 * 2 ^ (Z.log2_up n - 1)).
  { change 2 with (2 ^ 1) at 2. rewrite <- Z.pow_add_r by lia. f_equal. lia. }
  lia.
Qed.

(** ** Products of slices *)
Definition sp_ops (l : list Z) : list op := snd (c_SetProductRecursiveFast l).
Lemma c_sp_eq : forall l, c_SetProductRecursiveFast l = (Ret (product l), sp_ops l).
Proof.
  intros l. unfold sp_ops. rewrite <- SetProductRecursiveFast_spec with (l := l), <- c_SetProductRecursiveFast_outcome.
  now destruct (c_SetProductRecursiveFast l).
Qed.
Lemma c_spf_eq : forall f l, (length l <= f)%nat -> c_set_product_recursive_fast f l = (Ret (product l), snd (c_set_product_recursive_fast f l)).
Proof.
  intros f l H. rewrite <- set_product_recursive_fast_spec with (f := f) by exact H. rewrite <- c_set_product_recursive_fast_outcome.
  now destruct (c_set_product_recursive_fast f l).
Qed.
Definition sp_cost (b n : Z) (ops : list op) : Prop :=
  total exps ops = 0 /\ total exp_bits ops = 0 /\ total muls ops <= Z.max 0 (2 * n - 1) /\
  total mul_bits ops <= b * n * (Z.log2_up n + 1).
Lemma spf_cost : forall b f l, 0 <= b -> sized b l -> (length l <= f)%nat -> sp_cost b (Z.of_nat (length l)) (snd (c_set_product_recursive_fast f l)).
Proof.
  intros b f. induction f as [|f IH]; intros l Hb Hs Hl.
  - destruct l; [|cbn in Hl; lia]. unfold sp_cost. cbn [length]. change (Z.of_nat 0) with 0. rewrite Z.mul_0_r. cbn. repeat split; lia.
  - cbn [c_set_product_recursive_fast]. destruct (Nat.leb_spec (length l) 2) as [H2|H2].
    + destruct l as [|x [|y [|z l]]]; [..|cbn in H2; lia].
      * unfold sp_cost. cbn [length]. change (Z.of_nat 0) with 0. rewrite Z.mul_0_r. cbn. repeat split; lia.
      * inversion_clear Hs as [|? ? Hx _]. pose proof (bit_len_small b x Hb Hx).
        unfold sp_cost. cbn [c_loop cmul cbind free snd app length]. rewrite !total_cons, !total_nil. cbn [exps exp_bits muls mul_bits].
        rewrite Z.mul_1_l. change (Z.log2_up (Z.of_nat 1)) with 0. change (Z.of_nat 1) with 1. repeat split; lia.
      * inversion_clear Hs as [|? ? Hx Hs']. inversion_clear Hs' as [|? ? Hy _]. pose proof (bit_len_small b x Hb Hx). pose proof (bit_len_small b y Hb Hy).
        pose proof (bit_len_mul x y). unfold sp_cost. cbn [c_loop cmul cbind free snd app length]. rewrite !total_cons, !total_nil. cbn [exps exp_bits muls mul_bits].
        rewrite Z.mul_1_l. change (Z.log2_up (Z.of_nat 2)) with 1. change (Z.of_nat 2) with 2. repeat split; lia.
    + set (n := length l) in *. rewrite !go_slice_ret by lia. unfold free. cbn [cbind].
      set (s1 := slice l 0 (n / 2)). set (s2 := slice l (n / 2) n).
      assert (L1 : length s1 = (n / 2)%nat) by (unfold s1; rewrite slice_length; fold n; lia).
      assert (L2 : length s2 = (n - n / 2)%nat) by (unfold s2; rewrite slice_length; fold n; lia).
      pose proof (IH s1 Hb (sized_slice _ _ _ _ Hs) ltac:(lia)) as (A1 & A2 & A3 & A4).
      pose proof (IH s2 Hb (sized_slice _ _ _ _ Hs) ltac:(lia)) as (B1 & B2 & B3 & B4).
      rewrite (c_spf_eq f s1), (c_spf_eq f s2) by lia. unfold cmul. cbn [cbind snd app]. 
      assert (P : product s1 * product s2 = product l).
      { rewrite <- product_app. unfold s1, s2. rewrite <- slice_app by lia. unfold n. now rewrite slice_full. }
      assert (C : bit_len (product s1 * product s2) <= b * Z.of_nat n).
      { rewrite P. apply bit_len_product; [exact Hb|exact Hs|]. intros ->. cbn in H2. lia. }
      pose proof (log2_up_half (Z.of_nat n) (Z.of_nat (length s1)) ltac:(lia) ltac:(lia)) as G1.
      pose proof (log2_up_half (Z.of_nat n) (Z.of_nat (length s2)) ltac:(lia) ltac:(lia)) as G2.
      unfold sp_cost. rewrite !total_app, !total_cons, !total_nil. cbn [exps exp_bits muls mul_bits].
      assert (N12 : Z.of_nat n = Z.of_nat (length s1) + Z.of_nat (length s2)) by lia.
      assert (K : 1 <= Z.of_nat (length s1) /\ 1 <= Z.of_nat (length s2)) by lia.
      set (n1 := Z.of_nat (length s1)) in *. set (n2 := Z.of_nat (length s2)) in *. rewrite N12 in *.
      set (L := Z.log2_up (n1 + n2)) in *.
      assert (M1 : b * n1 * (Z.log2_up n1 + 1) <= b * n1 * L) by (apply Z.mul_le_mono_nonneg_l; nia).
      assert (M2 : b * n2 * (Z.log2_up n2 + 1) <= b * n2 * L) by (apply Z.mul_le_mono_nonneg_l; nia).
      repeat split; lia.
Qed.
Lemma sp_ops_cost : forall b l, 0 <= b -> sized b l -> sp_cost b (Z.of_nat (length l)) (sp_ops l).
Proof. intros b l Hb H. now apply spf_cost. Qed.

(** ** One level *)
Lemma small_cost : forall b base N set, 0 <= b -> 0 < N -> sized b set -> (1 <= length set <= 4)%nat ->
  affordable b (Z.of_nat (length set)) (snd (c_handleSmallSet base N set)).
Proof.
  intros b base N set Hb HN Hs Hl. pose proof (sized_nonneg _ _ Hs) as Hn.
  destruct set as [|x0 [|x1 [|x2 [|x3 [|x4 set]]]]]; cbn [length] in Hl; try lia.
  - unfold affordable. cbn. lia.
  - inversion_clear Hs as [|? ? X0 Hs']. inversion_clear Hs' as [|? ? X1 _]. apply bit_len_small in X0, X1; try exact Hb.
    unfold affordable, c_handleSmallSet, cexp. cbn [snd map length]. rewrite !total_cons, !total_nil. cbn [exps exp_bits muls mul_bits].
    change (Z.log2_up (Z.of_nat 2)) with 1. change (Z.of_nat 2) with 2. lia.
  - inversion_clear Hs as [|? ? X0 Hs']. inversion_clear Hs' as [|? ? X1 Hs'']. inversion_clear Hs'' as [|? ? X2 _]. apply bit_len_small in X0, X1, X2; try exact Hb.
    inversion_clear Hn as [|? ? Y0 Hn']. inversion_clear Hn' as [|? ? Y1 Hn'']. inversion_clear Hn'' as [|? ? Y2 _].
    pose proof (bit_len_mul x1 x2). pose proof (bit_len_mul x0 x2). pose proof (bit_len_mul x0 x1).
    unfold affordable, c_handleSmallSet, cexp, cmul. cbn [cbind]. rewrite multi_exp_spec by (try exact HN; repeat (apply Forall_cons; [nia|]); apply Forall_nil).
    cbn [cbind snd map length app]. rewrite !total_cons, !total_nil. cbn [exps exp_bits muls mul_bits].
    change (Z.log2_up (Z.of_nat 3)) with 2. change (Z.of_nat 3) with 3. lia.
  - inversion_clear Hs as [|? ? X0 Hs']. inversion_clear Hs' as [|? ? X1 Hs'']. inversion_clear Hs'' as [|? ? X2 Hs]. inversion_clear Hs as [|? ? X3 _].
    apply bit_len_small in X0, X1, X2, X3; try exact Hb.
    pose proof (bit_len_mul x0 x1). pose proof (bit_len_mul x2 x3). pose proof (bit_len_mul (x2 * x3) x1). pose proof (bit_len_mul (x2 * x3) x0).
    pose proof (bit_len_mul (x0 * x1) x3). pose proof (bit_len_mul (x0 * x1) x2).
    unfold affordable, c_handleSmallSet, cexp, cmul. cbn [cbind snd map length app]. rewrite !total_cons, !total_nil. cbn [exps exp_bits muls mul_bits].
    change (Z.log2_up (Z.of_nat 4)) with 2. change (Z.of_nat 4) with 4. lia.
Qed.

Definition rand_bits (rand : option Z) : Z := match rand with Some r => bit_len r | None => 0 end.
Definition level_cost (b n R : Z) (one : Z) (ops : list op) : Prop :=
  total exps ops = 4 /\ total exp_bits ops <= 3 * b * n + 4 * R /\ total muls ops <= 4 * n - 2 + 2 * one /\
  total mul_bits ops <= b * n * (2 * Z.log2_up n + 2) + one * b * n + 6 * R.
Lemma bases_cost : forall b rand base N set, 0 <= b -> 0 < N -> sized b set -> (4 <= length set)%nat -> (forall r, rand = Some r -> 0 <= r) ->
  let n := length set in
  exists bs ops, c_bases rand base N set = (Ret (bs, (slice set 0 (n / 4), slice set (n / 4) (n / 2), slice set (n / 2) (n * 3 / 4), slice set (n * 3 / 4) n)), ops) /\
    length bs = 4%nat /\ level_cost b (Z.of_nat n) (rand_bits rand) (match rand with Some _ => 1 | None => 0 end) ops.
Proof.
  intros b rand base N set Hb HN Hs Hl Hr n. unfold c_bases. fold n. rewrite !go_slice_ret by (fold n; lia). unfold free. cbn [cbind].
  set (sR := slice set (n / 2) n). set (sL := slice set 0 (n / 2)). set (sLR := slice set (n / 4) (n / 2)). set (sLL := slice set 0 (n / 4)).
  set (sRR := slice set (n * 3 / 4) n). set (sRL := slice set (n / 2) (n * 3 / 4)).
  rewrite !c_sp_eq. cbn [cbind].
  assert (Q : forall i j, sized b (slice set i j)) by (intros; now apply sized_slice).
  assert (P : forall i j, 0 <= product (slice set i j)) by (intros; apply product_nonneg, (sized_nonneg b), Q).
  assert (LR : length sR = (n - n / 2)%nat) by (unfold sR; rewrite slice_length; fold n; lia).
  assert (LL : length sL = (n / 2)%nat) by (unfold sL; rewrite slice_length; fold n; lia).
  assert (LLR : length sLR = (n / 2 - n / 4)%nat) by (unfold sLR; rewrite slice_length; fold n; lia).
  assert (LLL : length sLL = (n / 4)%nat) by (unfold sLL; rewrite slice_length; fold n; lia).
  assert (LRR : length sRR = (n - n * 3 / 4)%nat) by (unfold sRR; rewrite slice_length; fold n; lia).
  assert (LRL : length sRL = (n * 3 / 4 - n / 2)%nat) by (unfold sRL; rewrite slice_length; fold n; lia).
  assert (BL : forall s, sized b s -> (1 <= length s)%nat -> bit_len (product s) <= b * Z.of_nat (length s)).
  { intros s S1 S2. apply bit_len_product; [exact Hb|exact S1|]. intros ->. cbn in S2. lia. }
  pose proof (BL sR (Q _ _) ltac:(clear - LR Hl; lia)) as V1. pose proof (BL sL (Q _ _) ltac:(clear - LL Hl; lia)) as V2. pose proof (BL sLR (Q _ _) ltac:(clear - LLR Hl; lia)) as V3.
  pose proof (BL sLL (Q _ _) ltac:(clear - LLL Hl; lia)) as V4. pose proof (BL sRR (Q _ _) ltac:(clear - LRR Hl; lia)) as V5. pose proof (BL sRL (Q _ _) ltac:(clear - LRL Hl; lia)) as V6.
  pose proof (sp_ops_cost b sR Hb (Q _ _)) as (A1 & A2 & A3 & A4). pose proof (sp_ops_cost b sL Hb (Q _ _)) as (B1 & B2 & B3 & B4).
  pose proof (sp_ops_cost b sLR Hb (Q _ _)) as (C1 & C2 & C3 & C4). pose proof (sp_ops_cost b sLL Hb (Q _ _)) as (D1 & D2 & D3 & D4).
  pose proof (sp_ops_cost b sRR Hb (Q _ _)) as (E1 & E2 & E3 & E4). pose proof (sp_ops_cost b sRL Hb (Q _ _)) as (F1 & F2 & F3 & F4).
  assert (G : forall s : list Z, 2 * Z.of_nat (length s) <= Z.of_nat n + 1 -> b * Z.of_nat (length s) * (Z.log2_up (Z.of_nat (length s)) + 1) <= b * Z.of_nat (length s) * Z.log2_up (Z.of_nat n)).
  { intros s S1. assert (Hn : 4 <= Z.of_nat n) by (clear - Hl; lia). clear - Hb S1 Hn. apply Z.mul_le_mono_nonneg_l; [nia|]. pose proof (log2_up_half (Z.of_nat n) (Z.of_nat (length s)) ltac:(lia) S1). lia. }
  assert (G' : forall s : list Z, 4 * Z.of_nat (length s) <= Z.of_nat n + 3 -> b * Z.of_nat (length s) * (Z.log2_up (Z.of_nat (length s)) + 1) <= b * Z.of_nat (length s) * (Z.log2_up (Z.of_nat n) - 1)).
  { intros s S1. assert (Hn : 4 <= Z.of_nat n) by (clear - Hl; lia). clear - Hb S1 Hn. apply Z.mul_le_mono_nonneg_l; [nia|]. pose proof (log2_up_quarter (Z.of_nat n) (Z.of_nat (length s)) ltac:(lia) S1). lia. }
  pose proof (G sR ltac:(clear - LR Hl; lia)) as G1. pose proof (G sL ltac:(clear - LL Hl; lia)) as G2. pose proof (G' sLR ltac:(clear - LLR Hl; lia)) as G3.
  pose proof (G' sLL ltac:(clear - LLL Hl; lia)) as G4. pose proof (G' sRR ltac:(clear - LRR Hl; lia)) as G5. pose proof (G' sRL ltac:(clear - LRL Hl; lia)) as G6.
  assert (N1 : Z.of_nat n = Z.of_nat (length sR) + Z.of_nat (length sL)) by (clear - LR LL; lia).
  assert (N2 : Z.of_nat (length sL) = Z.of_nat (length sLL) + Z.of_nat (length sLR)) by (clear - LL LLL LLR; lia).
  assert (N3 : Z.of_nat (length sR) = Z.of_nat (length sRL) + Z.of_nat (length sRR)) by (clear - LR LRL LRR; lia).
  assert (Z1 : 1 <= Z.of_nat (length sR)) by (clear - LR Hl; lia). assert (Z2 : 1 <= Z.of_nat (length sL)) by (clear - LL Hl; lia).
  assert (Z3 : 1 <= Z.of_nat (length sLR)) by (clear - LLR Hl; lia). assert (Z4 : 1 <= Z.of_nat (length sLL)) by (clear - LLL Hl; lia).
  assert (Z5 : 1 <= Z.of_nat (length sRR)) by (clear - LRR Hl; lia). assert (Z6 : 1 <= Z.of_nat (length sRL)) by (clear - LRL Hl; lia).
  assert (T1 : total muls (sp_ops sR) + total muls (sp_ops sL) <= 2 * Z.of_nat n - 2) by (clear - A3 B3 N1 Z1 Z2; lia).
  assert (T2 : total muls (sp_ops sLR) + total muls (sp_ops sLL) + total muls (sp_ops sRR) + total muls (sp_ops sRL) <= 2 * Z.of_nat n - 4) by (clear - C3 D3 E3 F3 N1 N2 N3 Z3 Z4 Z5 Z6; lia).
  assert (T3 : total mul_bits (sp_ops sR) + total mul_bits (sp_ops sL) + total mul_bits (sp_ops sLR) + total mul_bits (sp_ops sLL) +
    total mul_bits (sp_ops sRR) + total mul_bits (sp_ops sRL) <= b * Z.of_nat n * (2 * Z.log2_up (Z.of_nat n) - 1)).
  { clear - A4 B4 C4 D4 E4 F4 G1 G2 G3 G4 G5 G6 N1 N2 N3. revert A4 B4 C4 D4 E4 F4 G1 G2 G3 G4 G5 G6 N1 N2 N3.
    generalize (Z.log2_up (Z.of_nat n)) (Z.of_nat n) (Z.of_nat (length sR)) (Z.of_nat (length sL)) (Z.of_nat (length sLR)) (Z.of_nat (length sLL)) (Z.of_nat (length sRR)) (Z.of_nat (length sRL)).
    intros l n' a1 a2 a3 a4 a5 a6. intros. subst n'. 
    replace (b * (a1 + a2) * (2 * l - 1)) with (b * a1 * l + b * a2 * l + b * a4 * (l - 1) + b * a3 * (l - 1) + b * a6 * (l - 1) + b * a5 * (l - 1)) by (rewrite N2, N3; ring).
    lia. }
  assert (T4 : bit_len (product sR) + bit_len (product sL) <= b * Z.of_nat n) by (rewrite N1, Z.mul_add_distr_l; clear - V1 V2; lia).
  assert (T5 : bit_len (product sLR) + bit_len (product sLL) + bit_len (product sRR) + bit_len (product sRL) <= b * Z.of_nat n).
  { rewrite N1, N2, N3, !Z.mul_add_distr_l. clear - V3 V4 V5 V6. lia. }
  clear A3 A4 B3 B4 C3 C4 D3 D4 E3 E4 F3 F4 G G' G1 G2 G3 G4 G5 G6 V1 V2 V3 V4 V5 V6 N1 N2 N3 BL LR LL LLR LLL LRR LRL Z1 Z2 Z3 Z4 Z5 Z6.
  destruct rand as [r|]; cbn [rand_bits].
  - specialize (Hr r eq_refl). unfold cmul, cexp. cbn [cbind].
    rewrite multi_exp_spec by (try exact HN; repeat (apply Forall_cons; [repeat apply Z.mul_nonneg_nonneg; first [exact Hr|apply P]|]); apply Forall_nil).
    cbn [cbind map]. do 2 eexists. split; [reflexivity|]. split; [reflexivity|].
    pose proof (bit_len_mul (product sR) r). pose proof (bit_len_mul (product sL) r).
    pose proof (bit_len_mul (product sR * r) (product sLR)). pose proof (bit_len_mul (product sR * r) (product sLL)).
    pose proof (bit_len_mul (product sL * r) (product sRR)). pose proof (bit_len_mul (product sL * r) (product sRL)).
    unfold level_cost. repeat (rewrite ?total_app, ?total_cons, ?total_nil). cbn [exps exp_bits muls mul_bits].
    rewrite A1, A2, B1, B2, C1, C2, D1, D2, E1, E2, F1, F2. clear A1 A2 B1 B2 C1 C2 D1 D2 E1 E2 F1 F2 P Q Hs Hl.
    generalize dependent (Z.log2_up (Z.of_nat n)). generalize dependent (Z.of_nat n). intros. rewrite ?Z.mul_add_distr_l in *. repeat split; lia.
  - unfold cmul, cexp. cbn [cbind].
    rewrite multi_exp_spec by (try exact HN; repeat (apply Forall_cons; [apply Z.mul_nonneg_nonneg; apply P|]); apply Forall_nil).
    cbn [cbind map]. do 2 eexists. split; [reflexivity|]. split; [reflexivity|].
    pose proof (bit_len_mul (product sR) (product sLR)). pose proof (bit_len_mul (product sR) (product sLL)).
    pose proof (bit_len_mul (product sL) (product sRR)). pose proof (bit_len_mul (product sL) (product sRL)).
    unfold level_cost. repeat (rewrite ?total_app, ?total_cons, ?total_nil). cbn [exps exp_bits muls mul_bits].
    rewrite A1, A2, B1, B2, C1, C2, D1, D2, E1, E2, F1, F2. clear A1 A2 B1 B2 C1 C2 D1 D2 E1 E2 F1 F2 P Q Hs Hl.
    generalize dependent (Z.log2_up (Z.of_nat n)). generalize dependent (Z.of_nat n). intros. rewrite ?Z.mul_add_distr_l in *. repeat split; lia.
Qed.

(** ** The recursion *)
Lemma affordable_parts : forall b n m d l, 0 <= b -> 1 <= m -> 0 <= d -> Z.log2_up m <= Z.log2_up n - d -> affordable b m l ->
  2 * total exp_bits l <= 3 * b * m * (Z.log2_up n - d) /\ total exps l <= 2 * (m - 1) /\ total muls l <= 2 * m * (Z.log2_up n - d) /\
  2 * total mul_bits l <= b * m * ((Z.log2_up n - d) * (Z.log2_up n - d) + 4 * (Z.log2_up n - d)).
Proof.
  intros b n m d l Hb Hm Hd Hl (H1 & H2 & H3 & H4). pose proof (Z.log2_up_nonneg m) as P.
  assert (M : 0 <= b * m) by nia. set (x := Z.log2_up m) in *. set (y := Z.log2_up n - d) in *.
  assert (Q1 : b * m * x <= b * m * y) by (apply Z.mul_le_mono_nonneg_l; lia).
  assert (Q2 : m * x <= m * y) by (apply Z.mul_le_mono_nonneg_l; lia).
  assert (Q3 : x * x + 4 * x <= y * y + 4 * y) by nia.
  assert (Q4 : b * m * (x * x + 4 * x) <= b * m * (y * y + 4 * y)) by (apply Z.mul_le_mono_nonneg_l; lia).
  clear - H1 H2 H3 H4 Q1 Q2 Q4. repeat split; lia.
Qed.
Lemma affordable_quarters : forall b n n1 n2 n3 n4 R one l0 l1 l2 l3 l4, 0 <= b -> 4 <= n -> n = n1 + n2 + n3 + n4 ->
  1 <= n1 -> 1 <= n2 -> 1 <= n3 -> 1 <= n4 -> 4 * n1 <= n + 3 -> 4 * n2 <= n + 3 -> 4 * n3 <= n + 3 -> 4 * n4 <= n + 3 ->
  level_cost b n R one l0 -> affordable b n1 l1 -> affordable b n2 l2 -> affordable b n3 l3 -> affordable b n4 l4 ->
  let ops := l0 ++ l1 ++ l2 ++ l3 ++ l4 in let l := Z.log2_up n in
  2 * total exp_bits ops <= 3 * b * n * l + 8 * R /\ total exps ops <= 2 * (n - 1) /\ total muls ops <= 2 * n * l + 2 * one /\
  2 * total mul_bits ops <= b * n * (l * l + 4 * l) + 2 * one * b * n + 12 * R.
Proof.
  intros b n n1 n2 n3 n4 R one l0 l1 l2 l3 l4 Hb Hn E P1 P2 P3 P4 Q1 Q2 Q3 Q4 (C1 & C2 & C3 & C4) A1 A2 A3 A4 ops l.
  apply (affordable_parts b n n1 2) in A1; [|lia..|now apply log2_up_quarter]. apply (affordable_parts b n n2 2) in A2; [|lia..|now apply log2_up_quarter].
  apply (affordable_parts b n n3 2) in A3; [|lia..|now apply log2_up_quarter]. apply (affordable_parts b n n4 2) in A4; [|lia..|now apply log2_up_quarter].
  destruct A1 as (A11 & A12 & A13 & A14). destruct A2 as (A21 & A22 & A23 & A24). destruct A3 as (A31 & A32 & A33 & A34). destruct A4 as (A41 & A42 & A43 & A44).
  fold l in C4, A11, A13, A14, A21, A23, A24, A31, A33, A34, A41, A43, A44. unfold ops. rewrite !total_app. clearbody l. clear Q1 Q2 Q3 Q4.
  split; [|split; [|split]].
  - clear - A11 A21 A31 A41 C2 E. subst n. lia.
  - clear - A12 A22 A32 A42 C1 E. lia.
  - clear - A13 A23 A33 A43 C3 E. subst n. lia.
  - clear - A14 A24 A34 A44 C4 E. subst n. lia.
Qed.
Lemma cbind_ret : forall A B (a : A) l (f : A -> costed B), cbind (Ret a, l) f = (fst (f a), l ++ snd (f a)).
Proof. intros A B a l f. cbn [cbind]. now destruct (f a). Qed.
Lemma prove_cost : forall f b base N set, 0 <= b -> 0 < N -> sized b set -> (1 <= length set <= f)%nat ->
  affordable b (Z.of_nat (length set)) (snd (c_prove_membership f base N set)) /\ exists v, fst (c_prove_membership f base N set) = Ret v.
Proof.
  induction f as [|f IH]; intros b base N set Hb HN Hs Hl; [lia|]. pose proof (sized_nonneg _ _ Hs) as Hn.
  assert (SM : forall g, (length set <= 4)%nat -> exists v, fst (c_handleSmallSet g N set) = Ret v).
  { intros g H4. rewrite c_handleSmallSet_outcome. clear - HN Hn Hl H4. destruct set as [|x0 [|x1 [|x2 [|x3 [|x4 set]]]]]; cbn [length] in *; try lia; unfold handleSmallSet;
      rewrite ?multi_exp_spec by (try exact HN; repeat match goal with H : Forall _ (_ :: _) |- _ => inversion_clear H end; repeat (apply Forall_cons; [nia|]); apply Forall_nil); cbn [bind]; eauto. }
  cbn [c_prove_membership]. destruct (Nat.leb_spec (length set) 4) as [H4|H4]; [split; [apply small_cost; auto; lia|auto]|].
  destruct (bases_cost b None base N set Hb HN Hs ltac:(lia) ltac:(discriminate)) as (bs & ops & -> & Lb & C). cbn [rand_bits] in C.
  destruct bs as [|b0 [|b1 [|b2 [|b3 [|b4 bs]]]]]; try discriminate Lb. cbn [cbind]. set (n := length set) in *.
  assert (W : forall i j g, (i < j <= n)%nat -> (j - i <= f)%nat -> affordable b (Z.of_nat (j - i)) (snd (c_prove_membership f g N (slice set i j))) /\
    exists v, c_prove_membership f g N (slice set i j) = (Ret v, snd (c_prove_membership f g N (slice set i j)))).
  { intros i j g Hi Hj. assert (L : length (slice set i j) = (j - i)%nat) by (apply slice_length; fold n; lia).
    destruct (IH b g N (slice set i j) Hb HN (sized_slice _ _ _ _ Hs) ltac:(lia)) as (A & v & E). rewrite L in A. split; [exact A|]. exists v. rewrite <- E.
    now destruct (c_prove_membership f g N (slice set i j)). }
  destruct (W 0%nat (n / 4)%nat b0 ltac:(clear - H4; lia) ltac:(clear - Hl H4; lia)) as (A0 & v0 & E0).
  destruct (W (n / 4)%nat (n / 2)%nat b1 ltac:(clear - H4; lia) ltac:(clear - Hl H4; lia)) as (A1 & v1 & E1).
  destruct (W (n / 2)%nat (n * 3 / 4)%nat b2 ltac:(clear - H4; lia) ltac:(clear - Hl H4; lia)) as (A2 & v2 & E2).
  destruct (W (n * 3 / 4)%nat n b3 ltac:(clear - H4; lia) ltac:(clear - Hl H4; lia)) as (A3 & v3 & E3).
  rewrite E0, E1, E2, E3. unfold free. cbn [cbind fst snd app]. split; [|eauto]. rewrite app_nil_r.
  pose proof (affordable_quarters b (Z.of_nat n) (Z.of_nat (n / 4 - 0)) (Z.of_nat (n / 2 - n / 4)) (Z.of_nat (n * 3 / 4 - n / 2)) (Z.of_nat (n - n * 3 / 4)) 0 0 ops _ _ _ _ Hb ltac:(lia) ltac:(clear - H4; lia) ltac:(clear - H4; lia) ltac:(clear - H4; lia) ltac:(clear - H4; lia) ltac:(clear - H4; lia)
    ltac:(clear - H4; lia) ltac:(clear - H4; lia) ltac:(clear - H4; lia) ltac:(clear - H4; lia) C A0 A1 A2 A3) as (D1 & D2 & D3 & D4).
  unfold affordable. clear - D1 D2 D3 D4. repeat split; lia.
Qed.

(** ** ProveMembership *)
Lemma sized_width : forall b set, set <> [] -> sized b set -> 0 <= b.
Proof.
  intros b [|x set] Hne H; [congruence|]. inversion_clear H as [|? ? Hx _]. destruct (Z_lt_le_dec b 0) as [Hb|]; [|assumption].
  rewrite Z.pow_neg_r in Hx by lia. lia.
Qed.
Theorem C113_membership : forall base N set b, 0 < N -> set <> [] -> sized b set ->
  affordable b (Z.of_nat (length set)) (snd (c_ProveMembership base N set)) /\ fst (c_ProveMembership base N set) = ProveMembership base N set.
Proof.
  intros base N set b HN Hne Hs. split; [|apply c_ProveMembership_outcome]. pose proof (sized_width _ _ Hne Hs) as Hb.
  apply prove_cost; try assumption. destruct set; [congruence|cbn [length]; lia].
Qed.

(** with a randomizer: r is multiplied into four exponents *)
Definition affordable_with (b n R : Z) (one : Z) (ops : list op) : Prop :=
  let l := Z.log2_up n in
  2 * total exp_bits ops <= 3 * b * n * l + 8 * R /\
  total exps ops <= 2 * (n - 1) /\
  total muls ops <= 2 * n * l + 2 * one /\
  2 * total mul_bits ops <= b * n * (l * l + 4 * l) + 2 * one * b * n + 12 * R.
Lemma prove_slice : forall b base N set i j, 0 <= b -> 0 < N -> sized b set -> (i < j <= length set)%nat ->
  affordable b (Z.of_nat (j - i)) (snd (c_ProveMembership base N (slice set i j))) /\
  exists v, c_ProveMembership base N (slice set i j) = (Ret v, snd (c_ProveMembership base N (slice set i j))).
Proof.
  intros b base N set i j Hb HN Hs Hi. assert (L : length (slice set i j) = (j - i)%nat) by (apply slice_length; lia).
  destruct (prove_cost (length (slice set i j)) b base N (slice set i j) Hb HN (sized_slice _ _ _ _ Hs) ltac:(lia)) as (A & v & E).
  unfold c_ProveMembership. rewrite L in A at 1. split; [exact A|]. exists v. rewrite <- E. now destruct (c_prove_membership _ _ _ _).
Qed.
Theorem C113_randomizer : forall base r N set b, 0 < N -> 0 <= r -> (4 <= length set)%nat -> sized b set ->
  affordable_with b (Z.of_nat (length set)) (bit_len r) 1 (snd (c_ProveMembershipSingleThreadWithRandomizer base r N set)) /\
  fst (c_ProveMembershipSingleThreadWithRandomizer base r N set) = ProveMembershipSingleThreadWithRandomizer base r N set.
Proof.
  intros base r N set b HN Hr Hl Hs. split; [|apply c_Randomizer_outcome].
  assert (Hne : set <> []) by (intros ->; cbn in Hl; lia). pose proof (sized_width _ _ Hne Hs) as Hb. unfold c_ProveMembershipSingleThreadWithRandomizer.
  destruct (bases_cost b (Some r) base N set Hb HN Hs Hl) as (bs & ops & -> & Lb & C); [intros r' E; injection E as <-; exact Hr|]. cbn [rand_bits] in C.
  destruct bs as [|b0 [|b1 [|b2 [|b3 [|b4 bs]]]]]; try discriminate Lb. cbn [cbind]. set (n := length set) in *.
  destruct (prove_slice b b0 N set 0 (n / 4) Hb HN Hs ltac:(fold n; clear - Hl; lia)) as (A0 & v0 & E0).
  destruct (prove_slice b b1 N set (n / 4) (n / 2) Hb HN Hs ltac:(fold n; clear - Hl; lia)) as (A1 & v1 & E1).
  destruct (prove_slice b b2 N set (n / 2) (n * 3 / 4) Hb HN Hs ltac:(fold n; clear - Hl; lia)) as (A2 & v2 & E2).
  destruct (prove_slice b b3 N set (n * 3 / 4) n Hb HN Hs ltac:(fold n; clear - Hl; lia)) as (A3 & v3 & E3).
  rewrite E0, E1, E2, E3. unfold free. cbn [cbind fst snd app]. rewrite app_nil_r.
  exact (affordable_quarters b (Z.of_nat n) (Z.of_nat (n / 4 - 0)) (Z.of_nat (n / 2 - n / 4)) (Z.of_nat (n * 3 / 4 - n / 2)) (Z.of_nat (n - n * 3 / 4))
    (bit_len r) 1 ops _ _ _ _ Hb ltac:(clear - Hl; lia) ltac:(clear - Hl; lia) ltac:(clear - Hl; lia) ltac:(clear - Hl; lia) ltac:(clear - Hl; lia) ltac:(clear - Hl; lia)
    ltac:(clear - Hl; lia) ltac:(clear - Hl; lia) ltac:(clear - Hl; lia) ltac:(clear - Hl; lia) C A0 A1 A2 A3).
Qed.

(** ** All goroutines together *)
Section Spend.
Context {task val : Type}.
Variable cexpand : task -> costed (action task val).
Variable expand : task -> outcome (action task val).
(** the operations of a step, and of a run *)
Definition ops_by (g : gtree task val) (path : list nat) : list op :=
  match mover g path with Some (GRun t) => snd (cexpand t) | _ => [] end.
Fixpoint spent (g : outcome (gtree task val)) (sched : list (list nat)) : list op :=
  match sched, g with
  | p :: r, Ret g' => match gstep expand g' p with Some g'' => ops_by g' p ++ spent g'' r | None => [] end
  | _, _ => []
  end.

Variable w : op -> Z.
Variable good : task -> Prop.
Variable bound : task -> Z.
Definition zsum (l : list Z) : Z := fold_right Z.add 0 l.
Hypothesis bound_nonneg : forall t, good t -> 0 <= bound t.
Hypothesis bound_ok : forall t, good t ->
  match expand t with
  | Ret (Fork kids _) => Forall good kids /\ total w (snd (cexpand t)) + zsum (map bound kids) <= bound t
  | _ => total w (snd (cexpand t)) <= bound t
  end.
Fixpoint left (g : gtree task val) : Z :=
  match g with GRun t => bound t | GWait _ _ kids => zsum (map left kids) | GDone _ => 0 end.
Inductive fine : gtree task val -> Prop :=
| fine_run t : good t -> fine (GRun t)
| fine_done v : fine (GDone v)
| fine_wait k got kids : Forall fine kids -> fine (GWait k got kids).
Lemma zsum_nonneg : forall A (f : A -> Z) l, (forall a, In a l -> 0 <= f a) -> 0 <= zsum (map f l).
Proof. induction l as [|a l IH]; intros H; [cbn; lia|]. cbn [map zsum fold_right]. pose proof (H a (or_introl eq_refl)). fold (zsum (map f l)). assert (0 <= zsum (map f l)) by (apply IH; intros; apply H; now right). lia. Qed.
Lemma zsum_upd : forall A (f : A -> Z) kids i kid kid', nth_error kids i = Some kid ->
  zsum (map f (firstn i kids ++ kid' :: skipn (S i) kids)) + f kid = zsum (map f kids) + f kid'.
Proof.
  induction kids as [|k kids IH]; intros [|i] kid kid' H; try discriminate H.
  - injection H as ->. change (firstn 0 (kid :: kids)) with (@nil A). change (skipn 1 (kid :: kids)) with kids. cbn [app map zsum fold_right]. lia.
  - specialize (IH i kid kid' H). change (firstn (S i) (k :: kids)) with (k :: firstn i kids). change (skipn (S (S i)) (k :: kids)) with (skipn (S i) kids).
    cbn [app map zsum fold_right]. fold (zsum (map f (firstn i kids ++ kid' :: skipn (S i) kids))). fold (zsum (map f kids)). lia.
Qed.
Fixpoint left_nonneg (g : gtree task val) : fine g -> 0 <= left g.
Proof.
  destruct g as [t|k got kids|v]; intros F; cbn [left].
  - inversion F; subst. now apply bound_nonneg.
  - assert (F' : Forall fine kids) by (inversion F; assumption). clear F. induction kids as [|g kids IH]; [cbn; lia|].
    cbn [map zsum fold_right]. fold (zsum (map left kids)). inversion F' as [|? ? F1 F2]; subst. pose proof (left_nonneg g F1). pose proof (IH F2). lia.
  - lia.
Qed.
Lemma spend_step : forall p g o, fine g -> gstep expand g p = Some o ->
  match o with Ret g' => fine g' /\ total w (ops_by g p) + left g' <= left g | _ => total w (ops_by g p) <= left g end.
Proof.
  induction p as [|i p IH]; intros g o F H.
  - destruct g as [t|k got kids|v]; cbn [gstep] in H; [|destruct kids as [|[t|k' got' kids'|v] kids]; try discriminate H|discriminate H].
    + assert (G : good t) by (inversion F; assumption). pose proof (bound_ok t G) as B. unfold ops_by. cbn [mover].
      destruct (expand t) as [[v|ts k]| |]; injection H as <-; cbn [left].
      * split; [constructor|]. lia.
      * destruct B as [B1 B2]. split; [|].
        -- constructor. apply Forall_forall. intros g Hg. apply in_map_iff in Hg. destruct Hg as (t' & <- & Ht). constructor. exact (proj1 (Forall_forall _ _) B1 t' Ht).
        -- rewrite map_map. cbn [left]. exact B2.
      * exact B.
      * exact B.
    + injection H as <-. cbn. split; [constructor|lia].
    + injection H as <-. unfold ops_by. cbn [mover left map]. rewrite total_nil. split; [|unfold zsum; cbn [fold_right]; lia]. assert (F' : Forall fine (GDone v :: kids)) by (inversion F; assumption). inversion F'; subst. now constructor.
  - destruct g as [t|k got kids|v]; cbn [gstep] in H; try discriminate H. unfold ops_by. cbn [mover].
    destruct (nth_error kids i) as [kid|] eqn:Ei; [|discriminate H]. destruct (gstep expand kid p) as [o'|] eqn:Ek; [|discriminate H].
    assert (FK : Forall fine kids) by (inversion F; assumption).
    assert (FK' : fine kid) by exact (proj1 (Forall_forall _ _) FK kid (nth_error_In _ _ Ei)).
    specialize (IH kid o' FK' Ek). fold (ops_by kid p). pose proof (zsum_upd _ left kids i kid kid Ei) as U0.
    assert (LE : left kid <= left (GWait k got kids)).
    { cbn [left]. clear - Ei FK bound_nonneg. revert i Ei. induction FK as [|g kids Fg FK IHk]; intros i Ei; [destruct i; discriminate Ei|].
      cbn [map zsum fold_right]. fold (zsum (map left kids)). destruct i as [|i].
      - injection Ei as ->. assert (0 <= zsum (map left kids)) by (apply zsum_nonneg; intros a Ha; apply left_nonneg; exact (proj1 (Forall_forall _ _) FK a Ha)). lia.
      - specialize (IHk i Ei). pose proof (left_nonneg g Fg). lia. }
    destruct o' as [kid'| |]; injection H as <-; [|lia|lia]. destruct IH as [I1 I2]. pose proof (zsum_upd _ left kids i kid kid' Ei) as U.
    change (match kids with [] => [] | _ :: l0 => skipn i l0 end) with (skipn (S i) kids). split.
    + constructor. apply Forall_app. rewrite Forall_forall in FK. split; [|constructor; [exact I1|]]; apply Forall_forall; intros a Ha; apply FK.
      * rewrite <- (firstn_skipn i kids). apply in_or_app. exact (or_introl Ha).
      * rewrite <- (firstn_skipn (S i) kids). apply in_or_app. exact (or_intror Ha).
    + change (left (GWait k got ?l)) with (zsum (map left l)). revert U. generalize (firstn i kids ++ kid' :: skipn (S i) kids). intros l U. lia.
Qed.
Lemma spend_run : forall sched g st, fine g -> grun expand (Ret g) sched = Some st -> total w (spent (Ret g) sched) <= left g.
Proof.
  induction sched as [|p r IH]; intros g st F H; cbn [grun spent] in *.
  - cbn. now apply left_nonneg.
  - destruct (gstep expand g p) as [o|] eqn:E; [|discriminate H]. pose proof (spend_step _ _ _ F E) as S. rewrite total_app. destruct o as [g2| |].
    + destruct S as [S1 S2]. specialize (IH _ _ S1 H). lia.
    + assert (Z : spent Panic r = []) by (destruct r; reflexivity). rewrite Z, total_nil. lia.
    + assert (Z : spent OutOfFuel r = []) by (destruct r; reflexivity). rewrite Z, total_nil. lia.
Qed.
End Spend.

(** ** The parallel functions *)
Definition weight (q : nat) (o : op) : Z :=
  match q with 0%nat => 2 * exp_bits o | 1%nat => exps o | 2%nat => muls o | _ => 2 * mul_bits o end.
Definition quota (q : nat) (b n l R one : Z) : Z :=
  match q with
  | 0%nat => 3 * b * n * l + 8 * R
  | 1%nat => 2 * (n - 1)
  | 2%nat => 2 * n * l + 2 * one
  | _ => b * n * (l * l + 4 * l) + 2 * one * b * n + 12 * R
  end.
Lemma total_scale : forall c w l, total (fun o => c * w o) l = c * total w l.
Proof. induction l as [|o l IH]; [cbn; lia|]. rewrite !total_cons, IH. ring. Qed.
Lemma affordable_quota : forall b n R one ops, affordable_with b n R one ops <-> forall q, total (weight q) ops <= quota q b n (Z.log2_up n) R one.
Proof.
  intros b n R one ops. split.
  - intros (H1 & H2 & H3 & H4) [|[|[|q]]]; cbn [quota].
    + change (weight 0) with (fun o => 2 * exp_bits o). rewrite total_scale. exact H1.
    + exact H2.
    + exact H3.
    + change (weight (S (S (S q)))) with (fun o => 2 * mul_bits o). rewrite total_scale. exact H4.
  - intros H. pose proof (H 0%nat) as H1. pose proof (H 3%nat) as H4. change (weight 0) with (fun o => 2 * exp_bits o) in H1. change (weight 3) with (fun o => 2 * mul_bits o) in H4.
    rewrite total_scale in H1, H4. exact (conj H1 (conj (H 1%nat) (conj (H 2%nat) H4))).
Qed.
Lemma affordable_zero : forall b n ops, affordable b n ops <-> affordable_with b n 0 0 ops.
Proof. intros b n ops. unfold affordable, affordable_with. cbv zeta. split; intros (H1 & H2 & H3 & H4); repeat split; lia. Qed.
Lemma quota_mono : forall q b m x y, 0 <= b -> 1 <= m -> 0 <= x <= y -> quota q b m x 0 0 <= quota q b m y 0 0.
Proof.
  intros q b m x y Hb Hm Hx. assert (M : 0 <= b * m) by nia.
  assert (Q1 : b * m * x <= b * m * y) by (apply Z.mul_le_mono_nonneg_l; lia).
  assert (Q2 : m * x <= m * y) by (apply Z.mul_le_mono_nonneg_l; lia).
  assert (Q3 : x * x + 4 * x <= y * y + 4 * y) by nia.
  assert (Q4 : b * m * (x * x + 4 * x) <= b * m * (y * y + 4 * y)) by (apply Z.mul_le_mono_nonneg_l; lia).
  clear - Q1 Q2 Q4. destruct q as [|[|[|q]]]; cbn [quota]; lia.
Qed.
Lemma quota_nonneg : forall q b n R one, 0 <= b -> 1 <= n -> 0 <= R -> 0 <= one -> 0 <= quota q b n (Z.log2_up n) R one.
Proof.
  intros q b n R one Hb Hn HR Ho. pose proof (Z.log2_up_nonneg n). assert (0 <= b * n) by nia. assert (0 <= b * n * Z.log2_up n) by nia. assert (0 <= n * Z.log2_up n) by nia.
  assert (0 <= b * n * (Z.log2_up n * Z.log2_up n + 4 * Z.log2_up n)) by nia. assert (0 <= one * (b * n)) by nia.
  destruct q as [|[|[|q]]]; cbn [quota]; lia.
Qed.
Lemma quota_extra : forall q b n l R one, 0 <= b -> 1 <= n -> 0 <= R -> 0 <= one -> quota q b n l 0 0 <= quota q b n l R one.
Proof.
  intros q b n l R one Hb Hn HR Ho. assert (0 <= b * n) by nia. assert (0 <= one * (b * n)) by nia.
  destruct q as [|[|[|q]]]; cbn [quota]; lia.
Qed.
Lemma quota_quarters : forall q b n n1 n2 n3 n4 l0, 0 <= b -> 4 <= n -> n = n1 + n2 + n3 + n4 ->
  1 <= n1 -> 1 <= n2 -> 1 <= n3 -> 1 <= n4 -> 4 * n1 <= n + 3 -> 4 * n2 <= n + 3 -> 4 * n3 <= n + 3 -> 4 * n4 <= n + 3 ->
  level_cost b n 0 0 l0 ->
  let k m := quota q b m (Z.log2_up m) 0 0 in total (weight q) l0 + (k n1 + (k n2 + (k n3 + (k n4 + 0)))) <= k n.
Proof.
  intros q b n n1 n2 n3 n4 l0 Hb Hn E P1 P2 P3 P4 Q1 Q2 Q3 Q4 (C1 & C2 & C3 & C4) k. unfold k.
  pose proof (log2_up_quarter n n1 Hn Q1) as L1. pose proof (log2_up_quarter n n2 Hn Q2) as L2. pose proof (log2_up_quarter n n3 Hn Q3) as L3. pose proof (log2_up_quarter n n4 Hn Q4) as L4.
  pose proof (quota_mono q b n1 _ _ Hb P1 (conj (Z.log2_up_nonneg n1) L1)) as M1. pose proof (quota_mono q b n2 _ _ Hb P2 (conj (Z.log2_up_nonneg n2) L2)) as M2.
  pose proof (quota_mono q b n3 _ _ Hb P3 (conj (Z.log2_up_nonneg n3) L3)) as M3. pose proof (quota_mono q b n4 _ _ Hb P4 (conj (Z.log2_up_nonneg n4) L4)) as M4.
  clear L1 L2 L3 L4 Q1 Q2 Q3 Q4. set (l := Z.log2_up n) in *. clearbody l.
  assert (T : total (weight q) l0 + quota q b n1 (l - 2) 0 0 + quota q b n2 (l - 2) 0 0 + quota q b n3 (l - 2) 0 0 + quota q b n4 (l - 2) 0 0 <= quota q b n l 0 0).
  { clear M1 M2 M3 M4. destruct q as [|[|[|q]]]; cbn [quota].
    - change (weight 0) with (fun o => 2 * exp_bits o). rewrite total_scale. clear - C2 E. subst n. lia.
    - change (weight 1) with exps. clear - C1 E. lia.
    - change (weight 2) with muls. clear - C3 E. subst n. lia.
    - change (weight (S (S (S q)))) with (fun o => 2 * mul_bits o). rewrite total_scale. clear - C4 E. subst n. lia. }
  clear - M1 M2 M3 M4 T. lia.
Qed.
Lemma quota_halves : forall q b n n1 n2 l0, 0 <= b -> 4 < n -> n = n1 + n2 -> 1 <= n1 -> 1 <= n2 -> 2 * n1 <= n + 1 -> 2 * n2 <= n + 1 ->
  total exps l0 = 2 -> total exp_bits l0 <= b * n -> total muls l0 <= 2 * n - 2 -> total mul_bits l0 <= b * n * Z.log2_up n ->
  let k m := quota q b m (Z.log2_up m) 0 0 in total (weight q) l0 + (k n1 + (k n2 + 0)) <= k n.
Proof.
  intros q b n n1 n2 l0 Hb Hn E P1 P2 Q1 Q2 C1 C2 C3 C4 k. unfold k.
  pose proof (log2_up_half n n1 ltac:(lia) Q1) as L1. pose proof (log2_up_half n n2 ltac:(lia) Q2) as L2.
  pose proof (quota_mono q b n1 _ _ Hb P1 (conj (Z.log2_up_nonneg n1) L1)) as M1. pose proof (quota_mono q b n2 _ _ Hb P2 (conj (Z.log2_up_nonneg n2) L2)) as M2.
  clear L1 L2 Q1 Q2. set (l := Z.log2_up n) in *. clearbody l. assert (BN : 0 <= b * n) by nia.
  assert (T : total (weight q) l0 + quota q b n1 (l - 1) 0 0 + quota q b n2 (l - 1) 0 0 <= quota q b n l 0 0).
  { clear M1 M2. destruct q as [|[|[|q]]]; cbn [quota].
    - change (weight 0) with (fun o => 2 * exp_bits o). rewrite total_scale. clear - C2 E BN. subst n. lia.
    - change (weight 1) with exps. clear - C1 E. lia.
    - change (weight 2) with muls. clear - C3 E. subst n. lia.
    - change (weight (S (S (S q)))) with (fun o => 2 * mul_bits o). rewrite total_scale. clear - C4 E BN. subst n. lia. }
  clear - M1 M2 T. lia.
Qed.

Definition pm_set (t : pm_task) : list Z :=
  match t with PMParallel _ s _ | PMTable _ s _ | PMRandomizer _ _ s _ | PMRandomizerChan _ _ s _ | PMChan _ s _ => s end.
Definition pm_rand (t : pm_task) : option Z :=
  match t with PMRandomizer _ r _ _ | PMRandomizerChan _ r _ _ => Some r | _ => None end.
Definition one_of (r : option Z) : Z := match r with Some _ => 1 | None => 0 end.
Definition pm_good (b : Z) (t : pm_task) : Prop :=
  sized b (pm_set t) /\ (1 <= length (pm_set t))%nat /\ forall r, pm_rand t = Some r -> 0 <= r /\ (4 <= length (pm_set t))%nat.
Definition pm_bound (q : nat) (b : Z) (t : pm_task) : Z :=
  let n := Z.of_nat (length (pm_set t)) in quota q b n (Z.log2_up n) (rand_bits (pm_rand t)) (one_of (pm_rand t)).
Lemma good_width : forall b t, pm_good b t -> 0 <= b.
Proof. intros b t (H1 & H2 & _). apply (sized_width b (pm_set t)); [|exact H1]. intros E. rewrite E in H2. cbn in H2. lia. Qed.

Lemma leaf_total : forall w m, total w (snd (c_leaf m)) = total w (snd m).
Proof. intros w [[v| |] l]; unfold c_leaf, free; cbn [cbind snd]; rewrite ?app_nil_r; reflexivity. Qed.
Lemma leaf_bound : forall q b B m, total (weight q) (snd m) <= B ->
  match fst (c_leaf m) with
  | Ret (Fork kids _) => Forall (pm_good b) kids /\ total (weight q) (snd (c_leaf m)) + zsum (map (pm_bound q b) kids) <= B
  | _ => total (weight q) (snd (c_leaf m)) <= B
  end.
Proof. intros q b B m H. rewrite leaf_total. destruct m as [[v| |] l]; exact H. Qed.
Lemma chan_bound : forall q b set i j base limit, sized b set -> (i < j <= length set)%nat ->
  pm_good b (PMChan base (slice set i j) limit) /\
  pm_bound q b (PMChan base (slice set i j) limit) = quota q b (Z.of_nat (j - i)) (Z.log2_up (Z.of_nat (j - i))) 0 0.
Proof.
  intros q b set i j base limit Hs Hi. assert (L : length (slice set i j) = (j - i)%nat) by (apply slice_length; lia). split.
  - split; [now apply sized_slice|]. cbn [pm_set]. rewrite L. split; [lia|]. discriminate.
  - unfold pm_bound. cbn [pm_set pm_rand rand_bits one_of]. rewrite L. reflexivity.
Qed.
Lemma quarter_bound : forall q b B N base set limit, 0 <= b -> 0 < N -> sized b set -> (4 <= length set)%nat ->
  quota q b (Z.of_nat (length set)) (Z.log2_up (Z.of_nat (length set))) 0 0 <= B ->
  match fst (c_quarter N base set limit) with
  | Ret (Fork kids _) => Forall (pm_good b) kids /\ total (weight q) (snd (c_quarter N base set limit)) + zsum (map (pm_bound q b) kids) <= B
  | _ => total (weight q) (snd (c_quarter N base set limit)) <= B
  end.
Proof.
  intros q b B N base set limit Hb HN Hs H4 HB. unfold c_quarter.
  destruct (bases_cost b None base N set Hb HN Hs H4 ltac:(discriminate)) as (bs & ops & -> & Lb & C). cbn [rand_bits] in C.
  destruct bs as [|b0 [|b1 [|b2 [|b3 [|b4 bs]]]]]; try discriminate Lb. unfold free. cbn [cbind fst snd]. rewrite app_nil_r. set (n := length set) in *.
  destruct (chan_bound q b set 0 (n / 4) b0 limit Hs ltac:(fold n; clear - H4; lia)) as [G0 W0].
  destruct (chan_bound q b set (n / 4) (n / 2) b1 limit Hs ltac:(fold n; clear - H4; lia)) as [G1 W1].
  destruct (chan_bound q b set (n / 2) (n * 3 / 4) b2 limit Hs ltac:(fold n; clear - H4; lia)) as [G2 W2].
  destruct (chan_bound q b set (n * 3 / 4) n b3 limit Hs ltac:(fold n; clear - H4; lia)) as [G3 W3].
  split; [auto|]. cbn [map zsum fold_right]. rewrite W0, W1, W2, W3.
  eapply Z.le_trans; [|exact HB]. apply (quota_quarters q b (Z.of_nat n)); try exact C; try exact Hb; clear - H4; lia.
Qed.
Lemma pm_bound_ok : forall q b N, 0 < N -> forall t, pm_good b t ->
  match pm_expand N t with
  | Ret (Fork kids _) => Forall (pm_good b) kids /\ total (weight q) (snd (c_pm_expand N t)) + zsum (map (pm_bound q b) kids) <= pm_bound q b t
  | _ => total (weight q) (snd (c_pm_expand N t)) <= pm_bound q b t
  end.
Proof.
  intros q b N HN t G. pose proof (good_width b t G) as Hb. rewrite <- c_pm_expand_outcome. destruct G as (Hs & H1 & Hr).
  assert (PM : forall base set, sized b set -> (1 <= length set)%nat -> total (weight q) (snd (c_ProveMembership base N set)) <= quota q b (Z.of_nat (length set)) (Z.log2_up (Z.of_nat (length set))) 0 0).
  { intros base set S1 S2. refine (proj1 (affordable_quota _ _ _ _ _) (proj1 (affordable_zero _ _ _) _) q). apply C113_membership; [exact HN| |exact S1]. intros ->. cbn in S2. lia. }
  assert (SM : forall base set, sized b set -> (1 <= length set <= 4)%nat -> total (weight q) (snd (c_handleSmallSet base N set)) <= quota q b (Z.of_nat (length set)) (Z.log2_up (Z.of_nat (length set))) 0 0).
  { intros base set S1 S2. refine (proj1 (affordable_quota _ _ _ _ _) (proj1 (affordable_zero _ _ _) _) q). now apply small_cost. }
  destruct t as [base set limit|base set limit|base r set limit|base r set limit|base set limit]; cbn [pm_set pm_rand] in *; cbn [c_pm_expand];
    match goal with |- context [pm_bound q b ?t] => remember (pm_bound q b t) as B eqn:EB end; unfold pm_bound in EB; cbn [pm_set pm_rand rand_bits one_of] in EB;
    (assert (HB : quota q b (Z.of_nat (length set)) (Z.log2_up (Z.of_nat (length set))) 0 0 <= B) by (rewrite EB; first [apply Z.le_refl|apply quota_extra; try lia; apply bit_len_nonneg]));
    (destruct (limit <=? 0); [apply leaf_bound; rewrite EB; first [now apply PM|refine (proj1 (affordable_quota _ _ _ _ _) _ q); destruct (Hr r eq_refl); now apply C113_randomizer]|]).
  - destruct (Nat.leb_spec (length set) 4); [apply leaf_bound; rewrite EB; apply SM; auto|]. apply quarter_bound; auto; lia.
  - destruct (Nat.leb_spec (length set) 4); [apply leaf_bound; rewrite EB; apply SM; auto|]. apply quarter_bound; auto; lia.
  - destruct (Hr r eq_refl). apply quarter_bound; auto.
  - destruct (Hr r eq_refl). apply quarter_bound; auto.
  - destruct (Nat.leb_spec (length set) 4) as [|H4]; [apply leaf_bound; rewrite EB; apply SM; auto|]. clear HB. set (n := length set) in *.
    rewrite !go_slice_ret by (fold n; clear - H4; lia). unfold free. cbn [cbind]. rewrite !c_sp_eq. unfold cexp. cbn [cbind].
    set (s1 := slice set 0 (n / 2)). set (s2 := slice set (n / 2) n).
    rewrite multi_exp_spec by (try exact HN; repeat (apply Forall_cons; [apply product_nonneg, (sized_nonneg b), sized_slice, Hs|]); apply Forall_nil). cbn [map cbind fst snd].
    set (ops := _ ++ _ : list op). 
    destruct (chan_bound q b set 0 (n / 2) (base ^ product s2 mod N) (limit - 1) Hs ltac:(fold n; clear - H4; lia)) as [G0 W0].
    destruct (chan_bound q b set (n / 2) n (base ^ product s1 mod N) (limit - 1) Hs ltac:(fold n; clear - H4; lia)) as [G1 W1].
    split; [auto|]. cbn [map zsum fold_right]. fold s1 in W0. fold s2 in W1. rewrite W0, W1.
    assert (L1 : length s1 = (n / 2)%nat) by (unfold s1; rewrite slice_length; fold n; clear - H4; lia).
    assert (L2 : length s2 = (n - n / 2)%nat) by (unfold s2; rewrite slice_length; fold n; clear - H4; lia).
    pose proof (sp_ops_cost b s1 Hb (sized_slice _ _ _ _ Hs)) as (A1 & A2 & A3 & A4). pose proof (sp_ops_cost b s2 Hb (sized_slice _ _ _ _ Hs)) as (B1 & B2 & B3 & B4).
    assert (V1 : bit_len (product s1) <= b * Z.of_nat (length s1)) by (apply bit_len_product; [exact Hb|now apply sized_slice|intros E; apply (f_equal (@length Z)) in E; rewrite L1 in E; cbn [length] in E; clear - E H4; lia]).
    assert (V2 : bit_len (product s2) <= b * Z.of_nat (length s2)) by (apply bit_len_product; [exact Hb|now apply sized_slice|intros E; apply (f_equal (@length Z)) in E; rewrite L2 in E; cbn [length] in E; clear - E H4; lia]).
    assert (G : forall s : list Z, 2 * Z.of_nat (length s) <= Z.of_nat n + 1 -> b * Z.of_nat (length s) * (Z.log2_up (Z.of_nat (length s)) + 1) <= b * Z.of_nat (length s) * Z.log2_up (Z.of_nat n)).
    { intros s S1. clear - S1 H4 Hb. apply Z.mul_le_mono_nonneg_l; [nia|]. pose proof (log2_up_half (Z.of_nat n) (Z.of_nat (length s)) ltac:(lia) S1). lia. }
    pose proof (G s1 ltac:(clear - L1; lia)) as G1'. pose proof (G s2 ltac:(clear - L2; lia)) as G2'.
    assert (N1 : Z.of_nat n = Z.of_nat (length s1) + Z.of_nat (length s2)) by (clear - L1 L2; lia).
    rewrite EB. apply (quota_halves q b (Z.of_nat n)); try exact Hb; try (clear - H4; lia); unfold ops; repeat (rewrite ?total_app, ?total_cons, ?total_nil); cbn [exps exp_bits muls mul_bits].
    + clear - A1 B1. lia.
    + rewrite A2, B2, N1, Z.mul_add_distr_l. clear - V1 V2. lia.
    + clear - A3 B3 L1 L2 H4. lia.
    + rewrite N1, Z.mul_add_distr_l, Z.mul_add_distr_r. rewrite N1 in G1', G2'. clear - A4 B4 G1' G2'. lia.
Qed.

Lemma quota_pos : forall q b t, pm_good b t -> 0 <= pm_bound q b t.
Proof.
  intros q b t G. pose proof (good_width b t G) as Hb. destruct G as (_ & H1 & _). unfold pm_bound. eapply Z.le_trans; [|apply quota_extra].
  - apply (quota_nonneg q b (Z.of_nat (length (pm_set t)))); try exact Hb; try apply Z.log2_up_nonneg; lia.
  - exact Hb.
  - lia.
  - destruct (pm_rand t); [apply bit_len_nonneg|cbn; lia].
  - destruct (pm_rand t); cbn; lia.
Qed.
(** whatever the schedule, and however far it gets *)
Theorem C113_parallel : forall N b t sched st, 0 < N -> pm_good b t -> grun (pm_expand N) (Ret (GRun t)) sched = Some st ->
  affordable_with b (Z.of_nat (length (pm_set t))) (rand_bits (pm_rand t)) (one_of (pm_rand t)) (spent (c_pm_expand N) (pm_expand N) (Ret (GRun t)) sched) /\
  forall u, fst (c_pm_expand N u) = pm_expand N u.
Proof.
  intros N b t sched st HN G H. split; [|apply c_pm_expand_outcome]. apply affordable_quota. intros q.
  refine (spend_run (c_pm_expand N) (pm_expand N) (weight q) (pm_good b) (pm_bound q b) _ _ sched (GRun t) st _ H).
  - apply quota_pos.
  - intros u Gu. now apply pm_bound_ok.
  - now constructor.
Qed.

(** ** From below *)
Definition large (c : Z) (set : list Z) : Prop := Forall (fun x => 2 ^ c <= x) set.
Lemma product_low : forall c l, 0 <= c -> large c l -> 2 ^ (c * Z.of_nat (length l)) <= product l.
Proof.
  intros c l Hc H. induction H as [|x l Hx H IH]; [cbn; rewrite Z.mul_0_r; cbn; lia|]. rewrite product_cons. cbn [length].
  replace (c * Z.of_nat (S (length l))) with (c + c * Z.of_nat (length l)) by lia. rewrite Z.pow_add_r by lia.
  apply Z.mul_le_mono_nonneg; try assumption; apply Z.lt_le_incl, Z.pow_pos_nonneg; lia.
Qed.
Lemma bit_len_low : forall m x, 0 <= m -> 2 ^ m <= x -> m <= bit_len x.
Proof.
  intros m x Hm Hx. assert (0 < 2 ^ m) by (apply Z.pow_pos_nonneg; lia). unfold bit_len. destruct (Z.eqb_spec x 0); [lia|].
  rewrite Z.abs_eq by lia. pose proof (Z.log2_le_mono _ _ Hx) as L. rewrite Z.log2_pow2 in L by exact Hm. lia.
Qed.
Lemma bits_low : forall c l, 0 <= c -> large c l -> c * Z.of_nat (length l) <= bit_len (product l).
Proof. intros c l Hc H. apply bit_len_low; [lia|]. now apply product_low. Qed.
Lemma large_slice : forall c l i j, large c l -> large c (slice l i j).
Proof. intros. now apply slice_Forall. Qed.
Lemma large_app : forall c l l', large c l -> large c l' -> large c (l ++ l').
Proof. intros. now apply Forall_app. Qed.
Lemma mul_bits_nonneg : forall l, 0 <= total mul_bits l.
Proof. induction l as [|o l IH]; [cbn; lia|]. rewrite total_cons. destruct o as [x y|e]; cbn [mul_bits]; [pose proof (bit_len_nonneg (x * y))|]; lia. Qed.
Lemma exp_bits_nonneg : forall l, 0 <= total exp_bits l.
Proof. induction l as [|o l IH]; [cbn; lia|]. rewrite total_cons. destruct o as [x y|e]; cbn [exp_bits]; [|pose proof (bit_len_nonneg e)]; lia. Qed.
Lemma spf_low : forall c j f l, 0 <= c -> large c l -> length l = (2 ^ j)%nat -> (length l <= f)%nat ->
  c * Z.of_nat (length l) * Z.of_nat j <= total mul_bits (snd (c_set_product_recursive_fast f l)).
Proof.
  intros c j. induction j as [|j IH]; intros f l Hc H Hl Hf; [pose proof (mul_bits_nonneg (snd (c_set_product_recursive_fast f l))); lia|].
  destruct f as [|f]; [rewrite Hl in Hf; pose proof (Nat.pow_nonzero 2 (S j) ltac:(lia)); lia|].
  cbn [c_set_product_recursive_fast]. destruct (Nat.leb_spec (length l) 2) as [H2|H2].
  - assert (j = 0%nat) as ->. { destruct j; [reflexivity|]. rewrite Hl, !Nat.pow_succ_r' in H2. pose proof (Nat.pow_nonzero 2 j ltac:(lia)). lia. }
    destruct l as [|x [|y [|z l]]]; try discriminate Hl. inversion_clear H as [|? ? Hx Hs']. inversion_clear Hs' as [|? ? Hy _].
    cbn [c_loop cmul cbind free snd app length]. rewrite !total_cons, !total_nil. cbn [mul_bits]. rewrite Z.mul_1_l.
    pose proof (bits_low c [x; y] Hc ltac:(repeat constructor; assumption)) as B. cbn [length] in B. unfold product in B. cbn [fold_right] in B. rewrite Z.mul_1_r in B.
    pose proof (bit_len_nonneg x). lia.
  - set (n := length l) in *. assert (Hn : n = (2 * 2 ^ j)%nat) by (rewrite Hl; apply Nat.pow_succ_r'). rewrite !go_slice_ret by lia. unfold free. cbn [cbind].
    set (s1 := slice l 0 (n / 2)). set (s2 := slice l (n / 2) n).
    assert (L1 : length s1 = (2 ^ j)%nat) by (unfold s1; rewrite slice_length; fold n; lia).
    assert (L2 : length s2 = (2 ^ j)%nat) by (unfold s2; rewrite slice_length; fold n; lia).
    pose proof (IH f s1 Hc (large_slice _ _ _ _ H) L1 ltac:(lia)) as A.
    pose proof (IH f s2 Hc (large_slice _ _ _ _ H) L2 ltac:(lia)) as B.
    rewrite (c_spf_eq f s1), (c_spf_eq f s2) by lia. unfold cmul. cbn [cbind snd app]. rewrite !total_app, !total_cons, !total_nil. cbn [mul_bits].
    assert (P : c * Z.of_nat (length (s1 ++ s2)) <= bit_len (product s1 * product s2)).
    { rewrite <- product_app. apply bits_low; [exact Hc|]. apply large_app; now apply large_slice. }
    rewrite app_length in P. replace (Z.of_nat n) with (Z.of_nat (length s1) + Z.of_nat (length s2)) by lia.
    clear - A B P. replace (Z.of_nat (S j)) with (Z.of_nat j + 1) by lia. lia.
Qed.
Lemma sp_low : forall c j l, 0 <= c -> large c l -> length l = (2 ^ j)%nat -> c * Z.of_nat (2 ^ j) * Z.of_nat j <= total mul_bits (sp_ops l).
Proof. intros c j l Hc H Hl. rewrite <- Hl. now apply spf_low. Qed.
Lemma large_nonneg : forall c l, 0 <= c -> large c l -> Forall (fun x => 0 <= x) l.
Proof. intros c l Hc H. eapply Forall_impl; [|exact H]. intros x Hx. cbv beta in Hx. pose proof (Z.pow_pos_nonneg 2 c). lia. Qed.
(** one level of 4D elements, D a power of two *)
Lemma level_low : forall c j base N set, 0 <= c -> 0 < N -> large c set -> length set = (4 * 2 ^ j)%nat ->
  let n := length set in let D := (2 ^ j)%nat in
  exists bs ops, c_bases None base N set = (Ret (bs, (slice set 0 (n / 4), slice set (n / 4) (n / 2), slice set (n / 2) (n * 3 / 4), slice set (n * 3 / 4) n)), ops) /\
    length bs = 4%nat /\ 12 * c * Z.of_nat D <= total exp_bits ops /\ c * Z.of_nat D * (8 * Z.of_nat j + 16) <= total mul_bits ops.
Proof.
  intros c j base N set Hc HN Hs Hl n D. fold n in Hl. fold D in Hl. pose proof (Nat.pow_nonzero 2 j ltac:(lia)) as HD. fold D in HD.
  unfold c_bases. fold n. rewrite !go_slice_ret by (fold n; lia). unfold free. cbn [cbind].
  set (sR := slice set (n / 2) n). set (sL := slice set 0 (n / 2)). set (sLR := slice set (n / 4) (n / 2)). set (sLL := slice set 0 (n / 4)).
  set (sRR := slice set (n * 3 / 4) n). set (sRL := slice set (n / 2) (n * 3 / 4)).
  rewrite !c_sp_eq. cbn [cbind].
  assert (Q : forall i j, large c (slice set i j)) by (intros; now apply large_slice).
  assert (P : forall i j, 0 <= product (slice set i j)) by (intros; apply product_nonneg, (large_nonneg c), Q; exact Hc).
  assert (LR : length sR = (2 * D)%nat) by (unfold sR; rewrite slice_length; fold n; clear - Hl; lia).
  assert (LL : length sL = (2 * D)%nat) by (unfold sL; rewrite slice_length; fold n; clear - Hl; lia).
  assert (LLR : length sLR = D) by (unfold sLR; rewrite slice_length; fold n; clear - Hl; lia).
  assert (LLL : length sLL = D) by (unfold sLL; rewrite slice_length; fold n; clear - Hl; lia).
  assert (LRR : length sRR = D) by (unfold sRR; rewrite slice_length; fold n; clear - Hl; lia).
  assert (LRL : length sRL = D) by (unfold sRL; rewrite slice_length; fold n; clear - Hl; lia).
  pose proof (sp_low c (S j) sR Hc (Q _ _) ltac:(rewrite LR, Nat.pow_succ_r'; reflexivity)) as A1. pose proof (sp_low c (S j) sL Hc (Q _ _) ltac:(rewrite LL, Nat.pow_succ_r'; reflexivity)) as A2.
  pose proof (sp_low c j sLR Hc (Q _ _) LLR) as A3. pose proof (sp_low c j sLL Hc (Q _ _) LLL) as A4. pose proof (sp_low c j sRR Hc (Q _ _) LRR) as A5. pose proof (sp_low c j sRL Hc (Q _ _) LRL) as A6.
  rewrite Nat.pow_succ_r' in A1, A2. fold D in A1, A2, A3, A4, A5, A6.
  assert (B : forall s s', large c s -> large c s' -> length s = (2 * D)%nat -> length s' = D -> 3 * c * Z.of_nat D <= bit_len (product s * product s')).
  { intros s s' S1 S2 S3 S4. rewrite <- product_app. pose proof (bits_low c (s ++ s') Hc (large_app _ _ _ S1 S2)) as X. rewrite app_length, S3, S4 in X. clear - X. nia. }
  pose proof (B sR sLR (Q _ _) (Q _ _) LR LLR) as B1. pose proof (B sR sLL (Q _ _) (Q _ _) LR LLL) as B2. pose proof (B sL sRR (Q _ _) (Q _ _) LL LRR) as B3. pose proof (B sL sRL (Q _ _) (Q _ _) LL LRL) as B4.
  unfold cmul, cexp. cbn [cbind].
  rewrite multi_exp_spec by (try exact HN; repeat (apply Forall_cons; [apply Z.mul_nonneg_nonneg; apply P|]); apply Forall_nil). cbn [cbind map].
  do 2 eexists. split; [reflexivity|]. split; [reflexivity|]. split; cbn [app]; repeat (rewrite ?total_app, ?total_cons, ?total_nil); cbn [exp_bits mul_bits].
  - pose proof (exp_bits_nonneg (sp_ops sR)). pose proof (exp_bits_nonneg (sp_ops sL)). pose proof (exp_bits_nonneg (sp_ops sLR)). pose proof (exp_bits_nonneg (sp_ops sLL)).
    pose proof (exp_bits_nonneg (sp_ops sRR)). pose proof (exp_bits_nonneg (sp_ops sRL)). clear A1 A2 A3 A4 A5 A6 Hl LR LL LLR LLL LRR LRL. lia.
  - clear - A1 A2 A3 A4 A5 A6 B1 B2 B3 B4. clearbody D.
    assert (E1 : c * Z.of_nat (2 * D) * Z.of_nat (S j) = 2 * (c * Z.of_nat D * Z.of_nat j) + 2 * (c * Z.of_nat D)) by (rewrite Nat2Z.inj_mul, (Nat2Z.inj_succ j); change (Z.of_nat 2) with 2; unfold Z.succ; ring).
    assert (E2 : 3 * c * Z.of_nat D = 3 * (c * Z.of_nat D)) by ring.
    rewrite E1 in A1, A2. rewrite E2 in B1, B2, B3, B4.
    assert (E3 : c * Z.of_nat D * (8 * Z.of_nat j + 16) = 8 * (c * Z.of_nat D * Z.of_nat j) + 16 * (c * Z.of_nat D)) by ring. rewrite E3. clear E1 E2 E3.
    revert A1 A2 A3 A4 A5 A6 B1 B2 B3 B4. generalize (c * Z.of_nat D * Z.of_nat j) (c * Z.of_nat D). intros. lia.
Qed.
Lemma sized_some : forall l, Forall (fun x => 0 <= x) l -> exists b, 0 <= b /\ sized b l.
Proof.
  intros l H. induction H as [|x l Hx H (b & Hb & IH)]; [exists 0; split; [lia|constructor]|]. pose proof (bit_len_nonneg x) as B. exists (Z.max (bit_len x) b). split; [lia|]. constructor.
  - split; [exact Hx|]. apply Z.lt_le_trans with (2 ^ bit_len x); [|apply Z.pow_le_mono_r; lia]. pose proof (proj1 (bit_len_le_iff x (bit_len x) B) (Z.le_refl _)). lia.
  - eapply Forall_impl; [|exact IH]. intros y [Y1 Y2]. split; [exact Y1|]. apply Z.lt_le_trans with (2 ^ b); [exact Y2|apply Z.pow_le_mono_r; lia].
Qed.
Lemma prove_low : forall k c f base N set, 0 <= c -> 0 < N -> large c set -> length set = (4 ^ k)%nat -> (length set <= f)%nat ->
  let n := Z.of_nat (length set) in let ops := snd (c_prove_membership f base N set) in
  3 * c * n * Z.of_nat k <= total exp_bits ops /\ 2 * c * n * (Z.of_nat k * (Z.of_nat k + 1)) <= total mul_bits ops.
Proof.
  induction k as [|k IH]; intros c f base N set Hc HN Hs Hl Hf; cbv zeta.
  - pose proof (exp_bits_nonneg (snd (c_prove_membership f base N set))). pose proof (mul_bits_nonneg (snd (c_prove_membership f base N set))).
    change (Z.of_nat 0) with 0. rewrite Z.mul_0_l, !Z.mul_0_r. split; assumption.
  - destruct f as [|f]; [pose proof (Nat.pow_nonzero 4 (S k) ltac:(lia)); lia|]. cbn [c_prove_membership]. destruct (Nat.leb_spec (length set) 4) as [H4|H4].
    + assert (k = 0%nat) as ->. { destruct k; [reflexivity|]. rewrite Hl, !Nat.pow_succ_r' in H4. pose proof (Nat.pow_nonzero 4 k ltac:(lia)). lia. }
      destruct set as [|x0 [|x1 [|x2 [|x3 [|x4 set]]]]]; try discriminate Hl.
      inversion_clear Hs as [|? ? X0 Hs']. inversion_clear Hs' as [|? ? X1 Hs'']. inversion_clear Hs'' as [|? ? X2 Hs]. inversion_clear Hs as [|? ? X3 _].
      assert (B2 : forall x y, 2 ^ c <= x -> 2 ^ c <= y -> 2 * c <= bit_len (x * y)).
      { intros x y Hx Hy. pose proof (bits_low c [x; y] Hc ltac:(repeat constructor; assumption)) as B. unfold product in B. cbn [fold_right length] in B. rewrite Z.mul_1_r in B. lia. }
      assert (B3 : forall x y z, 2 ^ c <= x -> 2 ^ c <= y -> 2 ^ c <= z -> 3 * c <= bit_len (x * y * z)).
      { intros x y z Hx Hy Hz. pose proof (bits_low c [x; y; z] Hc ltac:(repeat constructor; assumption)) as B. unfold product in B. cbn [fold_right length] in B. rewrite Z.mul_1_r, Z.mul_assoc in B. lia. }
      pose proof (B2 x0 x1 X0 X1). pose proof (B2 x2 x3 X2 X3). pose proof (B3 x2 x3 x1 X2 X3 X1). pose proof (B3 x2 x3 x0 X2 X3 X0). pose proof (B3 x0 x1 x3 X0 X1 X3). pose proof (B3 x0 x1 x2 X0 X1 X2).
      unfold c_handleSmallSet, cexp, cmul. cbn [cbind snd map length app]. rewrite !total_cons, !total_nil. cbn [exp_bits mul_bits].
      change (Z.of_nat 4) with 4. change (Z.of_nat 1) with 1. clear B2 B3 X0 X1 X2 X3. lia.
    + assert (E : (4 ^ k = 2 ^ (2 * k))%nat) by (rewrite Nat.pow_mul_r; reflexivity). 
      assert (Hl' : length set = (4 * 2 ^ (2 * k))%nat) by (rewrite Hl, Nat.pow_succ_r', E; reflexivity).
      destruct (level_low c (2 * k) base N set Hc HN Hs Hl') as (bs & ops & -> & Lb & C1 & C2).
      destruct bs as [|b0 [|b1 [|b2 [|b3 [|b4 bs]]]]]; try discriminate Lb. cbn [cbind]. rewrite <- E in Hl', C1, C2. set (n := length set) in *.
      assert (W : forall i g, (i + 4 ^ k <= n)%nat -> forall j, j = (i + 4 ^ k)%nat -> 3 * c * Z.of_nat (4 ^ k) * Z.of_nat k <= total exp_bits (snd (c_prove_membership f g N (slice set i j))) /\
        2 * c * Z.of_nat (4 ^ k) * (Z.of_nat k * (Z.of_nat k + 1)) <= total mul_bits (snd (c_prove_membership f g N (slice set i j))) /\
        exists v, c_prove_membership f g N (slice set i j) = (Ret v, snd (c_prove_membership f g N (slice set i j)))).
      { intros i g Hi j ->. pose proof (Nat.pow_nonzero 4 k ltac:(lia)). assert (L : length (slice set i (i + 4 ^ k)) = (4 ^ k)%nat) by (rewrite slice_length; fold n; lia).
        destruct (IH c f g N (slice set i (i + 4 ^ k)) Hc HN (large_slice _ _ _ _ Hs) L ltac:(lia)) as [I1 I2]. rewrite L in I1, I2. split; [exact I1|]. split; [exact I2|].
        assert (O : exists v, fst (c_prove_membership f g N (slice set i (i + 4 ^ k))) = Ret v).
        { destruct (sized_some (slice set i (i + 4 ^ k)) (large_nonneg c _ Hc (large_slice _ _ _ _ Hs))) as (b & Hb & Sb). apply (prove_cost f b g N _ Hb HN Sb). rewrite L. lia. }
        destruct O as [v O]. exists v. rewrite <- O. now destruct (c_prove_membership f g N (slice set i (i + 4 ^ k))). }
      destruct (W 0%nat b0 ltac:(clear - Hl'; lia) (n / 4)%nat ltac:(clear - Hl'; lia)) as (A0 & D0 & v0 & E0).
      destruct (W (n / 4)%nat b1 ltac:(clear - Hl'; lia) (n / 2)%nat ltac:(clear - Hl'; lia)) as (A1 & D1 & v1 & E1).
      destruct (W (n / 2)%nat b2 ltac:(clear - Hl'; lia) (n * 3 / 4)%nat ltac:(clear - Hl'; lia)) as (A2 & D2 & v2 & E2).
      destruct (W (n * 3 / 4)%nat b3 ltac:(clear - Hl'; lia) n ltac:(clear - Hl'; lia)) as (A3 & D3 & v3 & E3).
      rewrite E0, E1, E2, E3. unfold free. cbn [cbind fst snd app]. rewrite app_nil_r. rewrite !total_app.
      rewrite Hl', !Nat2Z.inj_mul, !Nat2Z.inj_succ in *. change (Z.of_nat 0) with 0 in *. change (Z.succ (Z.succ (Z.succ (Z.succ 0)))) with 4 in *. change (Z.succ (Z.succ 0)) with 2 in *. clear - C1 C2 A0 A1 A2 A3 D0 D1 D2 D3.
      set (x := Z.of_nat (4 ^ k)) in *. set (y := Z.of_nat k) in *. clearbody x y. unfold Z.succ. split.
      * replace (3 * c * (4 * x) * (y + 1)) with (4 * (3 * c * x * y) + 12 * c * x) by ring. lia.
      * replace (2 * c * (4 * x) * ((y + 1) * (y + 1 + 1))) with (4 * (2 * c * x * (y * (y + 1))) + c * x * (8 * (2 * y) + 16)) by ring. lia.
Qed.
Theorem C113_lower : forall base N set c k, 0 < N -> 0 <= c -> large c set -> length set = (4 ^ k)%nat ->
  let n := Z.of_nat (length set) in let ops := snd (c_ProveMembership base N set) in
  3 * c * n * Z.of_nat k <= total exp_bits ops /\ 2 * c * n * (Z.of_nat k * (Z.of_nat k + 1)) <= total mul_bits ops.
Proof. intros base N set c k HN Hc Hs Hl. now apply prove_low. Qed.

Example C113_case :
  let set := [3; 5; 7; 11; 13] in let run := c_ProveMembership 2 35 set in
  sized 4 set /\ fst run = Ret [2; 8; 22; 22; 8] /\
  (total exps (snd run), total exp_bits (snd run), total muls (snd run), total mul_bits (snd run)) = (6, 52, 15, 95) /\
  (let t := PMParallel 2 set 1 in let sched := follow (pm_expand 35) 99 (GRun t) in
   pm_good 4 t /\ grun (pm_expand 35) (Ret (GRun t)) sched = Some (Ret (GDone [2; 8; 22; 22; 8])) /\
   total exp_bits (spent (c_pm_expand 35) (pm_expand 35) (Ret (GRun t)) sched) = 52) /\
  (large 2 [4; 5; 6; 7] /\ length [4; 5; 6; 7] = (4 ^ 1)%nat /\ total exp_bits (snd (c_ProveMembership 2 35 [4; 5; 6; 7])) = 31).
Proof.
  cbv zeta. assert (S : sized 4 [3; 5; 7; 11; 13]) by (repeat constructor; lia). split; [exact S|]. split; [vm_compute; reflexivity|]. split; [vm_compute; reflexivity|]. split.
  - split; [split; [exact S|split; [cbn; lia|discriminate]]|]. split; vm_compute; reflexivity.
  - split; [repeat constructor; lia|]. split; vm_compute; reflexivity.
Qed.

(** ** C114: counting the bits of the integer products instead *)
Theorem C114_products_partial : forall base N set b, 0 < N -> set <> [] -> sized b set ->
  let n := Z.of_nat (length set) in let l := Z.log2_up n in
  2 * total mul_bits (snd (c_ProveMembership base N set)) <= b * n * (l * l + 4 * l).
Proof. intros base N set b HN Hne Hs. apply (C113_membership base N set b HN Hne Hs). Qed.
Theorem C114_products_refuted : forall C, exists base N set b, 0 < N /\ set <> [] /\ sized b set /\
  C * (b * Z.of_nat (length set) * Z.log2_up (Z.of_nat (length set))) < total mul_bits (snd (c_ProveMembership base N set)).
Proof.
  intros C. set (k := S (Z.to_nat (2 * C))). exists 2, 35, (repeat 2 (4 ^ k)), 2.
  assert (L : length (repeat 2 (4 ^ k)) = (4 ^ k)%nat) by apply repeat_length.
  assert (H : forall P : Z -> Prop, P 2 -> Forall P (repeat 2 (4 ^ k))) by (intros P HP; apply Forall_forall; intros x Hx; apply repeat_spec in Hx; now subst).
  split; [lia|]. split; [intros E; rewrite E in L; pose proof (Nat.pow_nonzero 4 k ltac:(lia)); cbn [length] in L; lia|]. split; [apply H; cbn; lia|].
  destruct (C113_lower 2 35 (repeat 2 (4 ^ k)) 1 k ltac:(lia) ltac:(lia) (H (fun x => 2 ^ 1 <= x) ltac:(cbv; discriminate)) L) as [_ B]. eapply Z.lt_le_trans; [|exact B]. rewrite L.
  assert (E : Z.log2_up (Z.of_nat (4 ^ k)) = 2 * Z.of_nat k).
  { rewrite Nat2Z.inj_pow. change (Z.of_nat 4) with (2 ^ 2). rewrite <- Z.pow_mul_r by lia. apply Z.log2_up_pow2. lia. }
  rewrite E. assert (P : 0 < Z.of_nat (4 ^ k)) by (pose proof (Nat.pow_nonzero 4 k ltac:(lia)); lia). assert (K : 2 * C < Z.of_nat k + 1 /\ 0 < Z.of_nat k) by (unfold k; lia).
  clear - P K. set (n := Z.of_nat (4 ^ k)) in *. set (y := Z.of_nat k) in *. clearbody n y.
  replace (C * (2 * n * (2 * y))) with (2 * (n * y) * (2 * C)) by ring. replace (2 * 1 * n * (y * (y + 1))) with (2 * (n * y) * (y + 1)) by ring.
  apply Z.mul_lt_mono_pos_l; nia.
Qed.
Print Assumptions C113_membership. Print Assumptions C113_randomizer. Print Assumptions C113_parallel. Print Assumptions C113_lower.
Print Assumptions C114_products_partial. Print Assumptions C114_products_refuted.
