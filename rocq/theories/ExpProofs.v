(** Proofs about SimpleExp and GCB. *)
From Coq Require Import ZArith Bool Lia List.
From Verif Require Import GoBig GoBigFacts ExpModel.
Import ListNotations.
Open Scope Z_scope.

Lemma word_base_val : word_base = 2 ^ 64. Proof. reflexivity. Qed.
Lemma word_base_pos : 0 < word_base. Proof. reflexivity. Qed.
Global Opaque word_base.

Lemma words_of_nth : forall f x c, 0 <= x < 2 ^ Z.of_nat f -> word_base ^ Z.of_nat c <= x ->
  nth_error (words_of f x) c = Some ((x / word_base ^ Z.of_nat c) mod word_base).
Proof.
  pose proof word_base_pos as Hb. induction f as [|f IH]; intros x c Hx Hc.
  - change (2 ^ Z.of_nat 0) with 1 in Hx. assert (0 < word_base ^ Z.of_nat c) by (apply Z.pow_pos_nonneg; lia). lia.
  - cbn [words_of].
    assert (0 < word_base ^ Z.of_nat c) by (apply Z.pow_pos_nonneg; lia).
    destruct (Z.eqb_spec x 0) as [->|Hx0]; [lia|].
    destruct c as [|c].
    + cbn [nth_error]. change (word_base ^ Z.of_nat 0) with 1. now rewrite Z.div_1_r.
    + cbn [nth_error]. assert (E : word_base ^ Z.of_nat (S c) = word_base * word_base ^ Z.of_nat c).
      { rewrite Nat2Z.inj_succ, Z.pow_succ_r by lia. reflexivity. }
      rewrite IH.
      * rewrite E, Z.div_div by (try apply Z.pow_nonzero; lia). reflexivity.
      * split; [apply Z.div_pos; lia|].
        apply Z.div_lt_upper_bound; [lia|].
        rewrite Nat2Z.inj_succ, Z.pow_succ_r in Hx by lia.
        assert (2 <= word_base) by (rewrite word_base_val; lia). nia.
      * rewrite E in Hc. apply Z.div_le_lower_bound; lia.
Qed.

Lemma bit_len_lt_pow : forall x k, 0 <= k < bit_len x -> 2 ^ k <= Z.abs x.
Proof.
  intros x k [Hk H]. destruct (Z_lt_le_dec (Z.abs x) (2 ^ k)) as [L|L]; [|exact L].
  apply (proj2 (bit_len_le_iff x k Hk)) in L. lia.
Qed.

Lemma big_bits_nth : forall x c, 0 <= x -> 64 * Z.of_nat c < bit_len x ->
  nth_error (big_bits x) c = Some ((x / 2 ^ (64 * Z.of_nat c)) mod 2 ^ 64).
Proof.
  intros x c Hx H. unfold big_bits. rewrite Z.abs_eq by assumption.
  assert (E : word_base ^ Z.of_nat c = 2 ^ (64 * Z.of_nat c)).
  { rewrite word_base_val, <- Z.pow_mul_r by lia. reflexivity. }
  rewrite words_of_nth.
  - now rewrite E, word_base_val.
  - rewrite Z2Nat.id by apply bit_len_nonneg. split; [assumption|].
    pose proof (bit_len_bound x). lia.
  - rewrite E. pose proof (bit_len_lt_pow x (64 * Z.of_nat c)). lia.
Qed.

(** ** the inner loop *)
Lemma emod_pos : forall a n, 0 < n -> emod a n = a mod n.
Proof. intros. unfold emod. now rewrite Z.abs_eq by lia. Qed.

Lemma bits_peel : forall w j k, 0 <= j -> 0 <= k ->
  (w / 2 ^ j) mod 2 ^ (k + 1) = Z.b2z (Z.testbit w j) + 2 * ((w / 2 ^ (j + 1)) mod 2 ^ k).
Proof.
  intros w j k Hj Hk.
  rewrite Z.pow_add_r, Z.mul_comm by lia. change (2 ^ 1) with 2.
  rewrite Z.rem_mul_r by lia || (pose proof (Z.pow_pos_nonneg 2 k); lia).
  rewrite Z.testbit_spec' by lia.
  rewrite Z.div_div by lia || (pose proof (Z.pow_pos_nonneg 2 j); lia).
  rewrite Z.pow_add_r by lia. reflexivity.
Qed.

Lemma simple_exp_fold : forall n w, 0 < n -> forall k j o gc, 0 <= o < n ->
  exists gc', fold_left (fun st j => simple_exp_bit n w j st) (seq j k) (o, gc) =
    ((o * gc ^ ((w / 2 ^ Z.of_nat j) mod 2 ^ Z.of_nat k)) mod n, gc') /\
    gc' mod n = gc ^ (2 ^ Z.of_nat k) mod n.
Proof.
  intros n w Hn. induction k as [|k IH]; intros j o gc Ho.
  - cbn [seq fold_left]. change (2 ^ Z.of_nat 0) with 1. rewrite Z.mod_1_r, Z.pow_0_r, Z.mul_1_r, Z.pow_1_r.
    rewrite (Z.mod_small o n) by assumption. now exists gc.
  - cbn [seq fold_left]. unfold simple_exp_bit at 2. rewrite !emod_pos by assumption.
    set (o1 := if Z.testbit w (Z.of_nat j) then (o * gc) mod n else o).
    assert (Ho1 : 0 <= o1 < n).
    { unfold o1. destruct (Z.testbit w (Z.of_nat j)); [apply Z.mod_pos_bound; lia|assumption]. }
    destruct (IH (S j) o1 ((gc * gc) mod n) Ho1) as (gc' & E & Hg). exists gc'. rewrite E.
    set (e := (w / 2 ^ Z.of_nat (S j)) mod 2 ^ Z.of_nat k) in *.
    assert (He : 0 <= e) by (apply Z.mod_pos_bound; apply Z.pow_pos_nonneg; lia).
    split.
    + f_equal. rewrite (Nat2Z.inj_succ k). unfold Z.succ. rewrite bits_peel by lia.
      replace (Z.of_nat j + 1) with (Z.of_nat (S j)) by lia. fold e.
      rewrite <- mul_mod_idem_r, pow_mod_idem, mul_mod_idem_r by assumption.
      assert (Sq : (gc * gc) ^ e = gc ^ (2 * e)).
      { rewrite <- Z.pow_2_r, <- Z.pow_mul_r by lia. reflexivity. }
      rewrite Sq, Z.pow_add_r by (try lia; destruct (Z.testbit w (Z.of_nat j)); cbn; lia).
      unfold o1. destruct (Z.testbit w (Z.of_nat j)); cbn [Z.b2z].
      * rewrite mul_mod_idem_l, Z.pow_1_r. f_equal. ring.
      * rewrite Z.pow_0_r. f_equal. ring.
    + rewrite Hg, pow_mod_idem by (apply Z.pow_nonneg; lia).
      rewrite <- Z.pow_2_r, <- Z.pow_mul_r by (try lia; apply Z.pow_nonneg; lia).
      rewrite (Nat2Z.inj_succ k), Z.pow_succ_r by lia. reflexivity.
Qed.

Lemma simple_exp_word_spec : forall n w o gc, 0 < n -> 0 <= o < n ->
  exists gc', simple_exp_word n w (o, gc) = ((o * gc ^ (w mod 2 ^ 64)) mod n, gc') /\
    gc' mod n = gc ^ (2 ^ 64) mod n.
Proof.
  intros n w o gc Hn Ho. destruct (simple_exp_fold n w Hn 64 0 o gc Ho) as (gc' & E & Hg).
  change (Z.of_nat 64) with 64 in E, Hg. change (Z.of_nat 0) with 0 in E. rewrite Z.pow_0_r, Z.div_1_r in E.
  exists gc'. unfold simple_exp_word. rewrite E.
  split; [reflexivity|exact Hg].
Qed.

(** ** the outer loop, as long as the word index agrees with the iteration number *)
Lemma simple_exp_loop_spec : forall n x, 0 < n -> 0 < x -> forall r m f o gc,
  0 <= o < n -> 0 <= m ->
  65 * (m + Z.of_nat r) - 65 < bit_len x <= 65 * (m + Z.of_nat r) -> m + Z.of_nat r <= 64 ->
  (r < f)%nat ->
  exists gc', simple_exp_loop f n (bit_len x) (big_bits x) (65 * m) (o, gc) =
    Ret ((o * gc ^ ((x / 2 ^ (64 * m)) mod 2 ^ (64 * Z.of_nat r))) mod n, gc').
Proof.
  intros n x Hn Hx. induction r as [|r IH]; intros m f o gc Ho Hm Hlen Hsmall Hf.
  - destruct f as [|f]; [lia|]. cbn [simple_exp_loop].
    replace (65 * m <? bit_len x) with false by (symmetry; apply Z.ltb_ge; lia).
    exists gc. change (64 * Z.of_nat 0) with 0. rewrite Z.pow_0_r, Z.mod_1_r, Z.pow_0_r, Z.mul_1_r.
    now rewrite (Z.mod_small o n).
  - destruct f as [|f]; [lia|]. cbn [simple_exp_loop].
    replace (65 * m <? bit_len x) with true by (symmetry; apply Z.ltb_lt; lia).
    assert (Ec : 65 * m / 64 = m) by (symmetry; apply (Z.div_unique (65 * m) 64 m m); lia).
    rewrite Ec. unfold go_index. rewrite big_bits_nth by lia. cbn [deref bind]. rewrite Z2Nat.id by lia.
    set (w := (x / 2 ^ (64 * m)) mod 2 ^ 64).
    destruct (simple_exp_word_spec n w o gc Hn Ho) as (g1 & E1 & Hg1). rewrite E1.
    replace (65 * m + 64 + 1) with (65 * (m + 1)) by ring.
    assert (Hlen' : 65 * (m + 1 + Z.of_nat r) - 65 < bit_len x <= 65 * (m + 1 + Z.of_nat r)) by (clear -Hlen; lia).
    assert (Hsmall' : m + 1 + Z.of_nat r <= 64) by (clear -Hsmall; lia).
    destruct (IH (m + 1) f ((o * gc ^ (w mod 2 ^ 64)) mod n) g1 (Z.mod_pos_bound _ _ Hn) ltac:(clear -Hm; lia) Hlen' Hsmall'
                ltac:(clear -Hf; lia)) as (g2 & E2).
    exists g2. rewrite E2. do 2 f_equal.
    set (e := (x / 2 ^ (64 * (m + 1))) mod 2 ^ (64 * Z.of_nat r)).
    assert (P64 : 0 < 2 ^ 64) by reflexivity.
    assert (He : 0 <= e) by (apply Z.mod_pos_bound; apply Z.pow_pos_nonneg; clear; lia).
    assert (Hw : 0 <= w) by (apply Z.mod_pos_bound; exact P64).
    assert (Ew : w mod 2 ^ 64 = w).
    { apply Z.mod_small. split; [assumption|]. unfold w. apply Z.mod_pos_bound. exact P64. }
    rewrite Ew, mul_mod_idem_l, <- mul_mod_idem_r, <- (pow_mod_idem g1), Hg1, pow_mod_idem, mul_mod_idem_r by assumption.
    assert (S : (x / 2 ^ (64 * m)) mod 2 ^ (64 * Z.of_nat (Datatypes.S r)) = w + 2 ^ 64 * e).
    { replace (64 * Z.of_nat (Datatypes.S r)) with (64 + 64 * Z.of_nat r) by (clear; lia).
      rewrite Z.pow_add_r by (clear; lia). rewrite Z.rem_mul_r by (clear; try apply Z.pow_nonzero; try apply Z.pow_pos_nonneg; lia).
      fold w. f_equal. unfold e. rewrite Z.div_div by (clear -Hm; try apply Z.pow_nonzero; try apply Z.pow_pos_nonneg; lia).
      rewrite <- Z.pow_add_r by (clear -Hm; lia). replace (64 * m + 64) with (64 * (m + 1)) by ring. reflexivity. }
    rewrite S, Z.pow_add_r by first [assumption | apply Z.mul_nonneg_nonneg; [discriminate|assumption]].
    rewrite (Z.pow_mul_r gc (2 ^ 64) e) by (try assumption; discriminate).
    f_equal. ring.
Qed.

(** number of words processed *)
Definition words_done (x : Z) : Z := (bit_len x + 64) / 65.

Lemma SimpleExp_law : forall g x n, 1 < g -> 1 <= x -> 1 < n -> bit_len x <= 4160 ->
  SimpleExp g x n = Ret (g ^ (x mod 2 ^ (64 * words_done x)) mod n).
Proof.
  intros g x n Hg Hx Hn Hb. unfold SimpleExp.
  replace (g <=? 1) with false by (symmetry; apply Z.leb_gt; lia).
  replace (n <=? 1) with false by (symmetry; apply Z.leb_gt; lia).
  replace (x <? 1) with false by (symmetry; apply Z.ltb_ge; lia). cbn [orb].
  assert (D : 65 * words_done x - 65 < bit_len x <= 65 * words_done x).
  { unfold words_done. pose proof (Z.div_mod (bit_len x + 64) 65). pose proof (Z.mod_pos_bound (bit_len x + 64) 65). lia. }
  assert (0 <= words_done x) by (apply Z.div_pos; pose proof (bit_len_nonneg x); lia).
  assert (words_done x <= 64) by lia.
  destruct (simple_exp_loop_spec n x ltac:(lia) ltac:(lia) (Z.to_nat (words_done x)) 0 (Z.to_nat (bit_len x) + 1) 1 g) as (g' & E);
    rewrite ?Z2Nat.id by lia; try lia.
  change (65 * 0) with 0 in E. rewrite E. cbn [bind]. f_equal.
  rewrite Z2Nat.id by lia. change (2 ^ (64 * 0)) with 1. now rewrite Z.div_1_r, Z.mul_1_l.
Qed.

Lemma SimpleExp_total : forall g x n, 1 < g -> 1 <= x -> 1 < n -> exists v, SimpleExp g x n = Ret v.
Proof.
  intros g x n Hg Hx Hn. unfold SimpleExp.
  replace (g <=? 1) with false by (symmetry; apply Z.leb_gt; lia).
  replace (n <=? 1) with false by (symmetry; apply Z.leb_gt; lia).
  replace (x <? 1) with false by (symmetry; apply Z.ltb_ge; lia). cbn [orb].
  assert (L : forall f i st, 0 <= i -> bit_len x - i < Z.of_nat f -> (0 < f)%nat ->
    exists r, simple_exp_loop f n (bit_len x) (big_bits x) i st = Ret r).
  { induction f as [|f IH]; intros i st Hi Hf Hf0; [lia|]. cbn [simple_exp_loop].
    destruct (Z.ltb_spec i (bit_len x)) as [Hl|Hl]; [|eauto].
    assert (Hc : 64 * (i / 64) <= i) by (apply Z.mul_div_le; lia).
    assert (Hc0 : 0 <= i / 64) by (apply Z.div_pos; lia).
    unfold go_index. rewrite big_bits_nth; [|lia|rewrite Z2Nat.id by lia; lia]. cbn [deref bind].
    apply IH; lia. }
  destruct (L (Z.to_nat (bit_len x) + 1)%nat 0 (1, g)) as [[o g'] E]; try lia.
  rewrite E. cbn [bind]. eauto.
Qed.

(** ** GCB *)
Lemma common_fold : forall a b k ret i, 0 <= i ->
  Z.testbit (fold_left (common_bits_step a b) (seq 0 k) ret) i =
  Z.testbit ret i || (Z.testbit a i && Z.testbit b i && (i <? Z.of_nat k)).
Proof.
  induction k as [|k IH]; intros ret i Hi.
  - cbn [seq fold_left]. replace (i <? Z.of_nat 0) with false by (symmetry; apply Z.ltb_ge; lia).
    now rewrite andb_false_r, orb_false_r.
  - rewrite seq_S, fold_left_app, Nat.add_0_l. cbn [fold_left]. unfold common_bits_step at 1.
    set (F := fold_left (common_bits_step a b) (seq 0 k) ret) in *.
    assert (E : Z.testbit (if Z.testbit a (Z.of_nat k) && Z.testbit b (Z.of_nat k) then Z.lor F (2 ^ Z.of_nat k) else F) i
              = Z.testbit F i || (Z.testbit a (Z.of_nat k) && Z.testbit b (Z.of_nat k) && (Z.of_nat k =? i))).
    { destruct (Z.testbit a (Z.of_nat k) && Z.testbit b (Z.of_nat k)).
      - rewrite Z.lor_spec, Z.pow2_bits_eqb by lia. reflexivity.
      - now rewrite orb_false_r. }
    rewrite E. unfold F. rewrite IH by assumption.
    destruct (Z.eqb_spec (Z.of_nat k) i) as [<-|Hne].
    + replace (Z.of_nat k <? Z.of_nat k) with false by (symmetry; apply Z.ltb_irrefl).
      replace (Z.of_nat k <? Z.of_nat (S k)) with true by (symmetry; apply Z.ltb_lt; lia).
      now rewrite !andb_false_r, !andb_true_r, orb_false_r.
    + rewrite andb_false_r, orb_false_r. f_equal. f_equal.
      destruct (Z.ltb_spec i (Z.of_nat k)), (Z.ltb_spec i (Z.of_nat (S k))); auto; lia.
Qed.

Lemma CommonBits_spec : forall a b, CommonBits a b = Z.land (Z.land a b) (Z.ones 32).
Proof.
  intros a b. apply Z.bits_inj'. intros i Hi. unfold CommonBits. rewrite common_fold by assumption.
  rewrite Z.bits_0, !Z.land_spec, Z.testbit_ones_nonneg by lia. reflexivity.
Qed.

Lemma land_le : forall a b, 0 <= a -> 0 <= Z.land a b <= a.
Proof.
  intros a b Ha. split; [apply Z.land_nonneg; now left|].
  assert (E : a = Z.lor (Z.land a b) (Z.ldiff a b)).
  { apply Z.bits_inj'. intros i Hi. rewrite Z.lor_spec, Z.land_spec, Z.ldiff_spec.
    destruct (Z.testbit a i), (Z.testbit b i); reflexivity. }
  assert (D : Z.land (Z.land a b) (Z.ldiff a b) = 0).
  { apply Z.bits_inj'. intros i Hi. rewrite Z.bits_0, !Z.land_spec, Z.ldiff_spec.
    destruct (Z.testbit a i), (Z.testbit b i); reflexivity. }
  apply Z.add_nocarry_lxor in D as D'. rewrite Z.lxor_lor in D' by assumption.
  rewrite E at 2. rewrite <- D'. assert (0 <= Z.ldiff a b) by (apply Z.ldiff_nonneg; now left). lia.
Qed.

Definition word_ok (w : Z) : Prop := 0 <= w < 2 ^ 64.

Lemma gcb_loop_sum : forall wa wb, Forall word_ok wa -> Forall word_ok wb ->
  let '(rc, ra, rb) := gcb_loop wa wb in
  Forall word_ok rc /\ Forall word_ok ra /\ Forall word_ok rb /\
  length ra = length wa /\ length rb = length wb /\ length rc = Nat.min (length wa) (length wb) /\
  words_val ra + words_val rc = words_val wa /\ words_val rb + words_val rc = words_val wb /\
  forall k, nth k rc 0 = Z.land (Z.land (nth k wa 0) (nth k wb 0)) (Z.ones 32).
Proof.
  induction wa as [|a wa IH]; intros wb Ha Hb.
  - cbn [gcb_loop]. repeat split; auto; cbn [words_val length Nat.min]; try lia.
    destruct k; cbn; now rewrite ?Z.land_0_l.
  - destruct wb as [|b wb].
    + cbn [gcb_loop]. repeat split; auto; cbn [words_val length Nat.min]; try lia.
      intros k. destruct k; cbn [nth]; now rewrite Z.land_0_r.
    + inversion_clear Ha as [|? ? Ha1 Ha2]. inversion_clear Hb as [|? ? Hb1 Hb2].
      cbn [gcb_loop]. specialize (IH wb Ha2 Hb2). destruct (gcb_loop wa wb) as [[rc ra] rb].
      destruct IH as (H1 & H2 & H3 & H4 & H5 & H6 & H7 & H8 & H9).
      rewrite CommonBits_spec. set (c := Z.land (Z.land a b) (Z.ones 32)).
      assert (Hc : 0 <= c <= a /\ c <= b).
      { unfold word_ok in *. pose proof (land_le a b). pose proof (land_le (Z.land a b) (Z.ones 32)).
        pose proof (land_le b a). rewrite (Z.land_comm b a) in *. unfold c. lia. }
      unfold word_ok in Ha1, Hb1.
      assert (Ea : word_sub a c = a - c).
      { unfold word_sub. rewrite word_base_val. apply Z.mod_small. lia. }
      assert (Eb : word_sub b c = b - c).
      { unfold word_sub. rewrite word_base_val. apply Z.mod_small. lia. }
      rewrite Ea, Eb.
      split; [constructor; [unfold word_ok; lia|assumption]|].
      split; [constructor; [unfold word_ok; lia|assumption]|].
      split; [constructor; [unfold word_ok; lia|assumption]|].
      cbn [length words_val Nat.min]. repeat split; try lia.
      intros [|k]; cbn [nth]; [reflexivity|apply H9].
Qed.

Lemma words_of_ok : forall f x, Forall word_ok (words_of f x).
Proof.
  induction f as [|f IH]; intros x; cbn [words_of]; [constructor|].
  destruct (x =? 0); constructor; [|apply IH].
  unfold word_ok. rewrite word_base_val. apply Z.mod_pos_bound. lia.
Qed.
Lemma words_of_val : forall f x, 0 <= x < 2 ^ Z.of_nat f -> words_val (words_of f x) = x.
Proof.
  pose proof word_base_pos. induction f as [|f IH]; intros x Hx; cbn [words_of].
  - change (2 ^ Z.of_nat 0) with 1 in Hx. cbn. lia.
  - destruct (Z.eqb_spec x 0) as [->|Hx0]; [reflexivity|]. cbn [words_val].
    rewrite IH.
    + pose proof (Z.div_mod x word_base). lia.
    + split; [apply Z.div_pos; lia|]. apply Z.div_lt_upper_bound; [lia|].
      rewrite Nat2Z.inj_succ, Z.pow_succ_r in Hx by lia.
      assert (2 <= word_base) by (rewrite word_base_val; lia). nia.
Qed.
Lemma big_bits_val : forall x, words_val (big_bits x) = Z.abs x.
Proof.
  intros x. unfold big_bits. apply words_of_val. rewrite Z2Nat.id by apply bit_len_nonneg.
  split; [lia|apply bit_len_bound].
Qed.
Lemma words_val_nonneg : forall ws, Forall word_ok ws -> 0 <= words_val ws.
Proof.
  intros ws H. pose proof word_base_pos. induction H as [|w ws Hw H IH]; cbn [words_val]; [lia|]. unfold word_ok in Hw. nia.
Qed.

Lemma words_testbit : forall ws i, Forall word_ok ws -> 0 <= i ->
  Z.testbit (words_val ws) i = Z.testbit (nth (Z.to_nat (i / 64)) ws 0) (i mod 64).
Proof.
  induction ws as [|w ws IH]; intros i Hw Hi.
  - cbn [words_val]. destruct (Z.to_nat (i / 64)); cbn [nth]; now rewrite !Z.bits_0.
  - inversion_clear Hw as [|? ? H1 H2]. cbn [words_val]. rewrite word_base_val, Z.add_comm, Z.mul_comm, <- Z.shiftl_mul_pow2 by lia.
    assert (D : Z.shiftl (words_val ws) 64 + w = Z.lor (Z.shiftl (words_val ws) 64) w).
    { rewrite <- Z.lxor_lor; [apply Z.add_nocarry_lxor|];
      (apply Z.bits_inj'; intros j Hj; rewrite Z.bits_0, Z.land_spec, Z.shiftl_spec by assumption;
       destruct (Z.lt_ge_cases j 64);
       [rewrite Z.testbit_neg_r by lia; reflexivity|
        replace (Z.testbit w j) with false; [apply andb_false_r|];
        symmetry; unfold word_ok in H1; rewrite <- (Z.mod_small w (2 ^ 64)) by assumption; apply Z.mod_pow2_bits_high; lia]). }
    rewrite D, Z.lor_spec, Z.shiftl_spec by assumption.
    destruct (Z.lt_ge_cases i 64) as [L|L].
    + rewrite Z.testbit_neg_r, Z.div_small, Z.mod_small by lia. reflexivity.
    + assert (Hlow : Z.testbit w i = false).
      { unfold word_ok in H1. rewrite <- (Z.mod_small w (2 ^ 64)) by assumption. apply Z.mod_pow2_bits_high; lia. }
      rewrite Hlow, orb_false_r, IH by (assumption || lia).
      assert (E : i / 64 = (i - 64) / 64 + 1).
      { replace i with (i - 64 + 1 * 64) at 1 by ring. apply Z.div_add. lia. }
      assert (E2 : i mod 64 = (i - 64) mod 64).
      { replace i with (i - 64 + 1 * 64) at 1 by ring. apply Z_mod_plus_full. }
      rewrite E, E2, Z2Nat.inj_add by (try apply Z.div_pos; lia). change (Z.to_nat 1) with 1%nat.
      rewrite Nat.add_1_r. reflexivity.
Qed.

Lemma GCB_law : forall a b, 0 <= a -> 0 <= b ->
  let '(r, a', b') := GCB a b in
  0 <= r /\ (forall i, 0 <= i -> Z.testbit r i = Z.testbit a i && Z.testbit b i && (i mod 64 <? 32)) /\
  words_val a' + r = a /\ words_val b' + r = b /\ Forall word_ok a' /\ Forall word_ok b'.
Proof.
  intros a b Ha Hb. unfold GCB.
  assert (Wa : Forall word_ok (big_bits a)) by apply words_of_ok.
  assert (Wb : Forall word_ok (big_bits b)) by apply words_of_ok.
  pose proof (gcb_loop_sum _ _ Wa Wb) as H. destruct (gcb_loop (big_bits a) (big_bits b)) as [[rc ra] rb].
  destruct H as (H1 & H2 & H3 & H4 & H5 & H6 & H7 & H8 & H9).
  rewrite !big_bits_val, ?Z.abs_eq in * by assumption.
  split; [now apply words_val_nonneg|]. split; [|auto].
  intros i Hi. rewrite words_testbit, H9, !Z.land_spec by assumption.
  rewrite Z.testbit_ones_nonneg by (try lia; apply Z.mod_pos_bound; lia).
  rewrite <- (words_testbit (big_bits a)), <- (words_testbit (big_bits b)) by assumption.
  now rewrite !big_bits_val, !Z.abs_eq by assumption.
Qed.
