(** Theorems for property C115: how much of the work the parallel membership functions really divide.

    The comments of the experiments speak of 4 and 16 cores for the limits 2 and 4 (finaltests.go:228-242). Here the
    longest chain of exponentiations that must happen one after the other is bounded from both sides: it is the time
    with as many cores as there are goroutines, counted in bits of the exponents (one modular squaring each, if every
    exponentiation is done on its own). *)
From Coq Require Import ZArith Bool Lia List ZifyNat.
From Verif Require Import GoBig GoBigFacts AccModel AccFacts AccProofs Spec ForkJoin ParModel PropertiesGoroutines CostModel PropertiesCost.
Import ListNotations.
Open Scope Z_scope.

(** ** Specification *)
(** A goroutine does its own operations, then starts the others and waits for all of them. [depth] counts how many
    generations are followed; the theorems hold for every depth. *)
Definition zmax (l : list Z) : Z := fold_right Z.max 0 l.
Fixpoint chain (depth : nat) (N : Z) (t : pm_task) : Z :=
  match depth with
  | O => 0
  | S d => total exp_bits (snd (c_pm_expand N t)) +
           match pm_expand N t with Ret (Fork kids _) => zmax (map (chain d N) kids) | _ => 0 end
  end.
(** n elements over 2^k goroutines: the largest share *)
Definition share (n k : Z) : Z := (n + 2 ^ k - 1) / 2 ^ k.

Lemma zmax_le : forall l B, 0 <= B -> Forall (fun x => x <= B) l -> zmax l <= B.
Proof. intros l B HB H. induction H as [|x l Hx H IH]; [exact HB|]. change (zmax (x :: l)) with (Z.max x (zmax l)). lia. Qed.
Lemma zmax_nonneg : forall l, 0 <= zmax l.
Proof. induction l as [|x l IH]; [cbn; lia|]. change (zmax (x :: l)) with (Z.max x (zmax l)). lia. Qed.
Lemma chain_nonneg : forall d N t, 0 <= chain d N t.
Proof.
  intros [|d] N t; cbn [chain]; [lia|]. pose proof (exp_bits_nonneg (snd (c_pm_expand N t))).
  assert (0 <= match pm_expand N t with Ret (Fork kids _) => zmax (map (chain d N) kids) | _ => 0 end); [|lia].
  destruct (pm_expand N t) as [[v|kids k]| |]; try lia. apply zmax_nonneg.
Qed.
Lemma share_zero : forall n, share n 0 = n.
Proof. intros n. unfold share. change (2 ^ 0) with 1. rewrite Z.div_1_r. lia. Qed.
Lemma share_pos : forall n k, 1 <= n -> 0 <= k -> 1 <= share n k.
Proof. intros n k Hn Hk. unfold share. assert (0 < 2 ^ k) by (apply Z.pow_pos_nonneg; lia). apply Z.div_le_lower_bound; lia. Qed.
Lemma share_mono : forall m n k, 0 <= k -> m <= n -> share m k <= share n k.
Proof. intros m n k Hk H. unfold share. assert (0 < 2 ^ k) by (apply Z.pow_pos_nonneg; lia). apply Z.div_le_mono; lia. Qed.
Lemma share_part : forall m n j k, 0 <= j -> 0 <= k -> 2 ^ j * m <= n + 2 ^ j - 1 -> share m k <= share n (j + k).
Proof.
  intros m n j k Hj Hk H. unfold share. assert (P : 0 < 2 ^ k) by (apply Z.pow_pos_nonneg; lia). assert (Q : 0 < 2 ^ j) by (apply Z.pow_pos_nonneg; lia).
  rewrite Z.pow_add_r by lia. apply Z.div_le_lower_bound; [nia|]. set (x := (m + 2 ^ k - 1) / 2 ^ k).
  assert (X : 2 ^ k * x <= m + 2 ^ k - 1) by (apply Z.mul_div_le; lia). clearbody x.
  assert (2 ^ j * (2 ^ k * x) <= 2 ^ j * (m + 2 ^ k - 1)) by (apply Z.mul_le_mono_nonneg_l; lia). nia.
Qed.

(** ** From above *)
Lemma leaf_own : forall m, match fst (c_leaf m) with Ret (Fork kids _) => False | _ => True end /\ total exp_bits (snd (c_leaf m)) = total exp_bits (snd m).
Proof. intros m. rewrite leaf_total. destruct m as [[v| |] l]; cbn; auto. Qed.
(** the goroutines of concurrent.go:287-313 *)
Lemma chan_chain : forall b N l, 0 <= b -> 0 < N -> forall d base set limit, sized b set -> (1 <= length set)%nat -> Z.log2_up (Z.of_nat (length set)) <= l ->
  let m := Z.of_nat (length set) in 2 * chain d N (PMChan base set limit) <= 6 * b * m + 3 * b * share m (Z.max 0 limit) * l.
Proof.
  intros b N l Hb HN. induction d as [|d IH]; intros base set limit Hs H1 Hl m.
  - cbn [chain]. pose proof (share_pos m (Z.max 0 limit) ltac:(lia) ltac:(lia)). pose proof (Z.log2_up_nonneg m) as Hp. fold m in Hl.
    assert (0 <= b * share m (Z.max 0 limit)) by (apply Z.mul_nonneg_nonneg; lia). assert (0 <= b * share m (Z.max 0 limit) * l) by (apply Z.mul_nonneg_nonneg; lia). assert (0 <= b * m) by (apply Z.mul_nonneg_nonneg; lia). lia.
  - cbn [chain]. rewrite <- c_pm_expand_outcome. cbn [c_pm_expand]. destruct (Z.leb_spec limit 0) as [L0|L0].
    + destruct (leaf_own (c_ProveMembership base N set)) as [F ->]. destruct (C113_membership base N set b HN ltac:(intros ->; cbn in H1; lia) Hs) as ((C & _) & _). fold m in C.
      rewrite Z.max_l, share_zero by lia. assert (0 <= b * m) by (apply Z.mul_nonneg_nonneg; lia). assert (3 * b * m * Z.log2_up m <= 3 * b * m * l) by (apply Z.mul_le_mono_nonneg_l; [lia|exact Hl]).
      destruct (fst (c_leaf _)) as [[v|kids k]| |]; [|destruct F|..]; lia.
    + destruct (Nat.leb_spec (length set) 4) as [H4|H4].
      * destruct (leaf_own (c_handleSmallSet base N set)) as [F ->]. destruct (small_cost b base N set Hb HN Hs ltac:(lia)) as (C & _). fold m in C.
        assert (0 <= b * m) by (apply Z.mul_nonneg_nonneg; lia). assert (L2 : Z.log2_up m <= 2) by (apply (Z.log2_up_le_mono m 4); lia). assert (3 * b * m * Z.log2_up m <= 3 * b * m * 2) by (apply Z.mul_le_mono_nonneg_l; lia).
        pose proof (share_pos m (Z.max 0 limit) ltac:(lia) ltac:(lia)). pose proof (Z.log2_up_nonneg m) as Hp. fold m in Hl. assert (0 <= b * share m (Z.max 0 limit)) by (apply Z.mul_nonneg_nonneg; lia). assert (0 <= b * share m (Z.max 0 limit) * l) by (apply Z.mul_nonneg_nonneg; lia).
        destruct (fst (c_leaf _)) as [[v|kids k]| |]; [|destruct F|..]; lia.
      * set (n := length set) in *.
        rewrite !go_slice_ret by (fold n; clear - H4; lia). unfold free. cbn [cbind]. rewrite !c_sp_eq. unfold cexp. cbn [cbind].
        set (s1 := slice set 0 (n / 2)). set (s2 := slice set (n / 2) n).
        rewrite multi_exp_spec by (try exact HN; repeat (apply Forall_cons; [apply product_nonneg, (sized_nonneg b), sized_slice, Hs|]); apply Forall_nil). cbn [map cbind fst snd].
        assert (L1 : length s1 = (n / 2)%nat) by (unfold s1; rewrite slice_length; fold n; clear - H4; lia).
        assert (L2 : length s2 = (n - n / 2)%nat) by (unfold s2; rewrite slice_length; fold n; clear - H4; lia).
        pose proof (sp_ops_cost b s1 Hb (sized_slice _ _ _ _ Hs)) as (_ & A2 & _). pose proof (sp_ops_cost b s2 Hb (sized_slice _ _ _ _ Hs)) as (_ & B2 & _).
        assert (V1 : bit_len (product s1) <= b * Z.of_nat (length s1)) by (apply bit_len_product; [exact Hb|now apply sized_slice|intros E; apply (f_equal (@length Z)) in E; rewrite L1 in E; cbn [length] in E; clear - E H4; lia]).
        assert (V2 : bit_len (product s2) <= b * Z.of_nat (length s2)) by (apply bit_len_product; [exact Hb|now apply sized_slice|intros E; apply (f_equal (@length Z)) in E; rewrite L2 in E; cbn [length] in E; clear - E H4; lia]).
        repeat (rewrite ?total_app, ?total_cons, ?total_nil). cbn [exp_bits]. rewrite A2, B2.
        assert (N1 : m = Z.of_nat (length s1) + Z.of_nat (length s2)) by (unfold m; clear - L1 L2; lia).
        assert (OWN : bit_len (product s2) + bit_len (product s1) <= b * m) by (rewrite N1, Z.mul_add_distr_l; clear - V1 V2; lia).
        assert (KID : forall s g, sized b s -> (1 <= length s)%nat -> 2 * Z.of_nat (length s) <= m + 1 -> 2 * chain d N (PMChan g s (limit - 1)) <= 3 * b * (m + 1) + 3 * b * share m (Z.max 0 limit) * l).
        { intros s g S1 S2 S3. assert (Hl' : Z.log2_up (Z.of_nat (length s)) <= l). { etransitivity; [|exact Hl]. apply Z.log2_up_le_mono. clear - S3 H4. fold m. lia. }
          pose proof (IH g s (limit - 1) S1 S2 Hl') as I. cbv zeta in I. 
          assert (SH : share (Z.of_nat (length s)) (Z.max 0 (limit - 1)) <= share m (Z.max 0 limit)).
          { replace (Z.max 0 limit) with (1 + Z.max 0 (limit - 1)) by (clear - L0; lia). apply share_part; [lia|lia|]. change (2 ^ 1) with 2. clear - S3. lia. }
          assert (0 <= l) by (pose proof (Z.log2_up_nonneg m); clear - Hl H; fold m in Hl; lia).
          assert (3 * b * share (Z.of_nat (length s)) (Z.max 0 (limit - 1)) * l <= 3 * b * share m (Z.max 0 limit) * l). { apply Z.mul_le_mono_nonneg_r; [assumption|]. apply Z.mul_le_mono_nonneg_l; [clear - Hb; lia|exact SH]. }
          assert (b * (2 * Z.of_nat (length s)) <= b * (m + 1)) by (apply Z.mul_le_mono_nonneg_l; assumption). clear - I H0 H2. lia. }
        pose proof (KID s1 (base ^ product s2 mod N) (sized_slice _ _ _ _ Hs) ltac:(clear - L1 H4; lia) ltac:(unfold m; clear - L1; lia)) as K1.
        pose proof (KID s2 (base ^ product s1 mod N) (sized_slice _ _ _ _ Hs) ltac:(clear - L2 H4; lia) ltac:(unfold m; clear - L2; lia)) as K2.
        pose proof (chain_nonneg d N (PMChan (base ^ product s2 mod N) s1 (limit - 1))).
        unfold zmax. cbn [fold_right]. assert (M5 : b * 5 <= b * m) by (apply Z.mul_le_mono_nonneg_l; [exact Hb|unfold m; clear - H4; lia]).
        clear - K1 K2 OWN M5 H Hb. set (x1 := chain _ _ _) in *. set (x2 := chain _ _ _) in K2 |- *. replace (3 * b * share m (Z.max 0 limit) * l) with (3 * (b * share m (Z.max 0 limit) * l)) in * by ring.
        set (y := b * share m (Z.max 0 limit) * l) in *. set (u := bit_len (product s1)) in *. set (v := bit_len (product s2)) in *. clearbody x1 x2 y u v m. lia.
Qed.
Lemma quarter_chain : forall b N d base set limit, 0 <= b -> 0 < N -> sized b set -> (4 < length set)%nat ->
  let n := Z.of_nat (length set) in
  2 * (total exp_bits (snd (c_quarter N base set limit)) + match fst (c_quarter N base set limit) with Ret (Fork kids _) => zmax (map (chain d N) kids) | _ => 0 end) <=
  9 * b * n + 3 * b * share n (2 + Z.max 0 limit) * Z.log2_up n.
Proof.
  intros b N d base set limit Hb HN Hs H4 n. unfold c_quarter.
  destruct (bases_cost b None base N set Hb HN Hs ltac:(lia) ltac:(discriminate)) as (bs & ops & -> & Lb & (_ & C & _)). cbn [rand_bits] in C. fold n in C.
  destruct bs as [|b0 [|b1 [|b2 [|b3 [|b4 bs]]]]]; try discriminate Lb. unfold free. cbn [cbind fst snd map]. rewrite app_nil_r. set (k := length set) in *.
  assert (KID : forall i j g, (i < j <= k)%nat -> (4 * (j - i) <= k + 3)%nat ->
    2 * chain d N (PMChan g (slice set i j) limit) <= 6 * b * Z.of_nat (j - i) + 3 * b * share n (2 + Z.max 0 limit) * Z.log2_up n).
  { intros i j g Hi Hj. assert (L : length (slice set i j) = (j - i)%nat) by (rewrite slice_length; fold k; clear - Hi; lia).
    pose proof (chan_chain b N (Z.log2_up n) Hb HN d g (slice set i j) limit (sized_slice _ _ _ _ Hs) ltac:(clear - L Hi; lia) ltac:(apply Z.log2_up_le_mono; unfold n; clear - L Hi; lia)) as I.
    cbv zeta in I. rewrite L in I. pose proof (Z.log2_up_nonneg n).
    assert (SH : share (Z.of_nat (j - i)) (Z.max 0 limit) <= share n (2 + Z.max 0 limit)) by (apply share_part; [lia|lia|change (2 ^ 2) with 4; unfold n; clear - Hj; lia]).
    assert (3 * b * share (Z.of_nat (j - i)) (Z.max 0 limit) * Z.log2_up n <= 3 * b * share n (2 + Z.max 0 limit) * Z.log2_up n). { apply Z.mul_le_mono_nonneg_r; [assumption|]. apply Z.mul_le_mono_nonneg_l; [clear - Hb; lia|exact SH]. }
    clear - I H0. lia. }
  pose proof (KID 0%nat (k / 4)%nat b0 ltac:(clear - H4; lia) ltac:(clear - H4; lia)) as K0. pose proof (KID (k / 4)%nat (k / 2)%nat b1 ltac:(clear - H4; lia) ltac:(clear - H4; lia)) as K1.
  pose proof (KID (k / 2)%nat (k * 3 / 4)%nat b2 ltac:(clear - H4; lia) ltac:(clear - H4; lia)) as K2. pose proof (KID (k * 3 / 4)%nat k b3 ltac:(clear - H4; lia) ltac:(clear - H4; lia)) as K3.
  unfold zmax. cbn [fold_right]. pose proof (chain_nonneg d N (PMChan b0 (slice set 0 (k / 4)) limit)) as P.
  assert (Q : forall i j, (4 * (j - i) <= k + 3)%nat -> b * (2 * Z.of_nat (j - i)) <= b * n) by (intros i j Hj; apply Z.mul_le_mono_nonneg_l; [exact Hb|unfold n; clear - Hj H4; lia]).
  pose proof (Q 0%nat (k / 4)%nat ltac:(clear - H4; lia)). pose proof (Q (k / 4)%nat (k / 2)%nat ltac:(clear - H4; lia)). pose proof (Q (k / 2)%nat (k * 3 / 4)%nat ltac:(clear - H4; lia)). pose proof (Q (k * 3 / 4)%nat k ltac:(clear - H4; lia)).
  clear Q KID. clear - C K0 K1 K2 K3 P H H0 H1 H2.
  set (x0 := chain _ _ _) in *. set (x1 := chain _ _ _) in K1 |- *. set (x2 := chain _ _ _) in K2 |- *. set (x3 := chain _ _ _) in K3 |- *. clearbody x0 x1 x2 x3. lia.
Qed.
(** with a positive limit: the share of one goroutine, and at most 9/2 b n bits besides *)
Theorem C115_chain : forall b N base set limit d, 0 < N -> sized b set -> (4 < length set)%nat -> 0 < limit ->
  let n := Z.of_nat (length set) in let bound := 9 * b * n + 3 * b * share n (Z.max 2 limit) * Z.log2_up n in
  2 * chain d N (PMParallel base set limit) <= bound /\ 2 * chain d N (PMTable base set limit) <= bound /\
  forall r, 2 * chain d N (PMRandomizer base r set limit) <= bound /\ 2 * chain d N (PMRandomizerChan base r set limit) <= bound.
Proof.
  intros b N base set limit d HN Hs H4 Hl n bound. assert (Hb : 0 <= b) by (apply (sized_width b set); [intros ->; cbn in H4; lia|exact Hs]).
  assert (S0 : 0 <= bound).
  { unfold bound. pose proof (share_pos n (Z.max 2 limit) ltac:(lia) ltac:(lia)). pose proof (Z.log2_up_nonneg n). assert (0 <= b * n) by (apply Z.mul_nonneg_nonneg; lia).
    assert (0 <= b * share n (Z.max 2 limit)) by (apply Z.mul_nonneg_nonneg; lia). assert (0 <= b * share n (Z.max 2 limit) * Z.log2_up n) by (apply Z.mul_nonneg_nonneg; lia). lia. }
  assert (Q : forall d', 2 * (total exp_bits (snd (c_quarter N base set (limit - 2))) + match fst (c_quarter N base set (limit - 2)) with Ret (Fork kids _) => zmax (map (chain d' N) kids) | _ => 0 end) <= bound).
  { intros d'. unfold bound. replace (Z.max 2 limit) with (2 + Z.max 0 (limit - 2)) by lia. now apply quarter_chain. }
  destruct d as [|d]; [cbn [chain]; auto|]. specialize (Q d). cbn [chain]. rewrite <- !c_pm_expand_outcome. cbn [c_pm_expand].
  destruct (Z.leb_spec limit 0) as [|_]; [lia|]. destruct (Nat.leb_spec (length set) 4) as [|_]; [lia|]. split; [exact Q|]. split; [exact Q|]. intros r. rewrite <- !c_pm_expand_outcome. cbn [c_pm_expand].
  destruct (Z.leb_spec limit 0) as [|_]; [lia|]. auto.
Qed.

(** ** From below *)
(** The first goroutine alone processes 3 (b-1) n bits before it starts the others, so no limit and no number of
    cores make the function more than about log2(n)/2 times faster. *)
Theorem C115_speedup : forall b N base set limit d j sched st, 0 < N -> 1 <= b -> sized b set -> large (b - 1) set -> length set = (4 * 2 ^ j)%nat -> (4 < length set)%nat -> 0 < limit -> (1 <= d)%nat ->
  grun (pm_expand N) (Ret (GRun (PMParallel base set limit))) sched = Some st ->
  let n := Z.of_nat (length set) in let t := PMParallel base set limit in
  let work := total exp_bits (spent (c_pm_expand N) (pm_expand N) (Ret (GRun t)) sched) in
  3 * (b - 1) * n <= chain d N t /\ 2 * (b - 1) * work <= b * Z.log2_up n * chain d N t.
Proof.
  intros b N base set limit d j sched st HN Hb Hs Hg Hlen H4 Hl Hd Hr n t work.
  assert (A : 3 * (b - 1) * n <= chain d N t).
  { destruct d as [|d]; [lia|]. cbn [chain]. rewrite <- c_pm_expand_outcome. unfold t. cbn [c_pm_expand].
    destruct (Z.leb_spec limit 0) as [|_]; [lia|]. destruct (Nat.leb_spec (length set) 4) as [|_]; [lia|]. unfold c_quarter.
    destruct (level_low (b - 1) j base N set ltac:(lia) HN Hg Hlen) as (bs & ops & -> & Lb & C1 & _).
    destruct bs as [|b0 [|b1 [|b2 [|b3 [|b4 bs]]]]]; try discriminate Lb. unfold free. cbn [cbind fst snd]. rewrite app_nil_r.
    match goal with |- _ <= _ + zmax ?l => pose proof (zmax_nonneg l) end. set (z := zmax _) in *. clearbody z. unfold n. rewrite Hlen, Nat2Z.inj_mul. change (Z.of_nat 4) with 4. clear - C1 H. lia. }
  split; [exact A|]. assert (G : pm_good b t) by (split; [exact Hs|split; [cbn [t pm_set]; lia|discriminate]]).
  destruct (C113_parallel N b t sched st HN G Hr) as ((C & _) & _). cbn [t pm_set pm_rand rand_bits] in C. fold t in C. fold work n in C. rewrite Z.mul_0_r, Z.add_0_r in C.
  pose proof (Z.log2_up_nonneg n) as L. set (l := Z.log2_up n) in *. set (x := chain d N t) in *. clearbody x l work n.
  assert (E1 : (b - 1) * (2 * work) <= (b - 1) * (3 * b * n * l)) by (apply Z.mul_le_mono_nonneg_l; lia).
  assert (E2 : b * l * (3 * (b - 1) * n) <= b * l * x) by (apply Z.mul_le_mono_nonneg_l; [apply Z.mul_nonneg_nonneg; lia|exact A]).
  clear - E1 E2. lia.
Qed.

(** 32 elements, limit 3: a chain of 535 bits and 1036 in all *)
Example C115_case :
  let set := [16; 17; 18; 19; 20; 21; 22; 23; 24; 25; 26; 27; 28; 29; 30; 31; 16; 17; 18; 19; 20; 21; 22; 23; 24; 25; 26; 27; 28; 29; 30; 31] in let t := PMParallel 2 set 3 in
  sized 5 set /\ large (5 - 1) set /\ length set = (4 * 2 ^ 3)%nat /\ Z.log2_up 32 = 5 /\ share 32 3 = 4 /\ chain 9 101 t = 535 /\
  (let sched := follow (pm_expand 101) 99 (GRun t) in
   (exists v, grun (pm_expand 101) (Ret (GRun t)) sched = Some (Ret (GDone v))) /\ total exp_bits (spent (c_pm_expand 101) (pm_expand 101) (Ret (GRun t)) sched) = 1036).
Proof.
  cbv zeta. split; [repeat constructor; lia|]. split; [repeat constructor; cbn; lia|]. split; [reflexivity|]. split; [reflexivity|]. split; [reflexivity|].
  split; [vm_compute; reflexivity|]. split; [eexists; vm_compute; reflexivity|]. vm_compute. reflexivity.
Qed.
Print Assumptions C115_chain. Print Assumptions C115_speedup.
