(** Theorems for property C118: the printed size of a precomputed table. *)
From Coq Require Import ZArith Znumtheory Zpow_facts Lia List ZifyNat.
From Verif Require Import GoBig GoBigFacts AccModel HashModel HashProofs ExperimentModel PropertiesHash TableSizeModel.
Import ListNotations.
Open Scope Z_scope.

(** ** Specification
    The table of the multiexp package (external): one row for each word of the exponent, one column for each bit of a
    word; the entry is the base raised to that power of two. A number takes the 64-bit words it has digits for. *)
Definition entry (base N : Z) (i j : nat) : Z := base ^ (2 ^ (64 * Z.of_nat i + Z.of_nat j)) mod N.
Definition pretable (base N : Z) (rows : nat) : list (list Z) := map (fun i => map (entry base N i) (seq 0 64)) (seq 0 rows).
Definition words (x : Z) : Z := (bit_len x + 63) / 64.
Definition zsum (l : list Z) : Z := fold_right Z.add 0 l.
Definition row_words (row : list Z) : Z := zsum (map words row).
Definition bytes_of (t : list (list Z)) : Z := 8 * zsum (map row_words t).

Lemma words_le : forall x y, 0 <= x -> x <= y -> words x <= words y.
Proof.
  intros x y H0 H. unfold words. apply Z.div_le_mono; [lia|]. apply Z.add_le_mono_r. unfold bit_len.
  destruct (Z.eqb_spec x 0); destruct (Z.eqb_spec y 0); try lia.
  - pose proof (Z.log2_nonneg (Z.abs y)). lia.
  - rewrite !Z.abs_eq by lia. pose proof (Z.log2_le_mono x y H). lia.
Qed.
Lemma words_pos : forall x, 0 < x -> 1 <= words x.
Proof. intros x H. unfold words, bit_len. destruct (Z.eqb_spec x 0); [lia|]. pose proof (Z.log2_nonneg (Z.abs x)). apply Z.div_le_lower_bound; lia. Qed.
Lemma words_big : forall x, 2 ^ 64 <= x -> 2 <= words x.
Proof.
  intros x H. assert (0 < 2 ^ 64) by reflexivity. unfold words, bit_len. destruct (Z.eqb_spec x 0); [lia|]. rewrite Z.abs_eq by lia.
  assert (64 <= Z.log2 x) by (apply Z.log2_le_pow2; lia). apply Z.div_le_lower_bound; lia.
Qed.
Lemma zsum_le : forall A (f : A -> Z) b l, (forall a, In a l -> f a <= b) -> zsum (map f l) <= Z.of_nat (length l) * b.
Proof. intros A f b l. induction l as [|a l IH]; intros H; cbn [map zsum fold_right length]; [lia|]. fold (zsum (map f l)). pose proof (H a (or_introl eq_refl)). pose proof (IH (fun x Hx => H x (or_intror Hx))). lia. Qed.
Lemma zsum_ge : forall A (f : A -> Z) b l, (forall a, In a l -> b <= f a) -> Z.of_nat (length l) * b <= zsum (map f l).
Proof. intros A f b l. induction l as [|a l IH]; intros H; cbn [map zsum fold_right length]; [lia|]. fold (zsum (map f l)). pose proof (H a (or_introl eq_refl)). pose proof (IH (fun x Hx => H x (or_intror Hx))). lia. Qed.
Lemma entry_range : forall b N i j, 0 < N -> 0 <= entry b N i j < N.
Proof. intros. apply Z.mod_pos_bound. lia. Qed.
Lemma entry_nonzero : forall b N i j, 1 < N -> Z.gcd b N = 1 -> 0 < entry b N i j.
Proof.
  intros b N i j HN HG. destruct (entry_range b N i j) as [H _]; [lia|]. destruct (Z.eq_dec (entry b N i j) 0) as [E|]; [exfalso|lia].
  unfold entry in E. apply Z.mod_divide in E; [|lia]. assert (R : rel_prime N (b ^ (2 ^ (64 * Z.of_nat i + Z.of_nat j)))).
  { apply rel_prime_Zpower_r; [apply Z.pow_nonneg; lia|]. apply rel_prime_sym. now apply Zgcd_1_rel_prime. }
  apply Zgcd_1_rel_prime in R. rewrite Z.gcd_comm in R. apply Z.divide_gcd_iff in E; [|lia]. rewrite Z.gcd_comm in E. rewrite R in E. lia.
Qed.

(** For every size whose computation stays inside an int: the printed rows and columns are those of the table; the
    printed bytes count one word for each entry. So they are a lower bound, missed by as soon as one entry has two
    words, and the table may need as many times more as the modulus has words. *)
Theorem C118_table_size_partial : forall setSize base N, 0 <= setSize < 2 ^ 46 -> 1 < N -> Z.gcd base N = 1 ->
  let p := TestPreComputeTableSize setSize in
  let t := pretable base N (Z.to_nat (tp_rows p)) in
  tp_rows p = 32 * setSize /\ Z.of_nat (length t) = tp_rows p /\ Forall (fun row => Z.of_nat (length row) = tp_columns p) t /\
  tp_bytes p = 8 * (tp_rows p * tp_columns p) /\
  tp_bytes p <= bytes_of t <= words N * tp_bytes p /\
  (0 < setSize -> 2 ^ 64 <= base < N -> tp_bytes p < bytes_of t).
Proof.
  intros setSize base N HS HN HG p t.
  assert (I : forall x, 0 <= x < 2 ^ 63 -> int64 x = x).
  { intros x Hx. unfold int64. rewrite Z.mod_small; [lia|]. change (2 ^ 64) with (2 * 2 ^ 63). lia. }
  assert (P49 : 2 ^ 63 = 131072 * 2 ^ 46) by reflexivity. assert (P0 : 0 < 2 ^ 46) by reflexivity.
  set (B := 2 ^ 46) in *. clearbody B. set (C := 2 ^ 63) in *. clearbody C.
  assert (R : tp_rows p = 32 * setSize).
  { subst p. cbn [tp_rows TestPreComputeTableSize]. unfold UintSize. rewrite I by lia. replace (setSize * 2048) with (32 * setSize * 64) by lia. apply Z.quot_mul. lia. }
  assert (Y : tp_bytes p = 8 * (tp_rows p * 64)).
  { change (tp_bytes p) with (Z.quot (int64 (int64 (tp_rows p * 64) * 64)) 8). rewrite R. rewrite (I (32 * setSize * 64)) by lia. rewrite I by lia.
    replace (32 * setSize * 64 * 64) with (8 * (32 * setSize * 64) * 8) by lia. apply Z.quot_mul. lia. }
  assert (LT : length t = Z.to_nat (tp_rows p)) by (subst t; unfold pretable; now rewrite map_length, seq_length).
  assert (RW : forall i, 64 <= row_words (map (entry base N i) (seq 0 64)) <= 64 * words N).
  { intros i. unfold row_words. rewrite map_map. split.
    - apply (zsum_ge _ (fun j => words (entry base N i j)) 1 (seq 0 64)). intros j _. apply words_pos. now apply entry_nonzero.
    - apply (zsum_le _ (fun j => words (entry base N i j)) (words N) (seq 0 64)). intros j _. destruct (entry_range base N i j); [lia|]. apply words_le; lia. }
  split; [exact R|]. split; [rewrite LT; lia|].
  split; [apply Forall_forall; intros row Hr; subst t; unfold pretable in Hr; apply in_map_iff in Hr as (i & <- & _); now rewrite map_length, seq_length|].
  split; [rewrite Y; reflexivity|].
  assert (S : zsum (map row_words t) = zsum (map (fun i => row_words (map (entry base N i) (seq 0 64))) (seq 0 (Z.to_nat (tp_rows p))))) by (subst t; unfold pretable; now rewrite map_map).
  unfold bytes_of. rewrite S, Y. set (n := Z.to_nat (tp_rows p)) in *. assert (Hn : tp_rows p = Z.of_nat n) by lia.
  pose proof (zsum_ge _ (fun i => row_words (map (entry base N i) (seq 0 64))) 64 (seq 0 n) (fun i _ => proj1 (RW i))) as LO.
  pose proof (zsum_le _ (fun i => row_words (map (entry base N i) (seq 0 64))) (64 * words N) (seq 0 n) (fun i _ => proj2 (RW i))) as HI.
  rewrite seq_length in LO, HI. split; [split; [lia|nia]|].
  intros POS HB. assert (E0 : entry base N 0 0 = base).
  { unfold entry. change (64 * Z.of_nat 0 + Z.of_nat 0) with 0. rewrite Z.pow_0_r, Z.pow_1_r. apply Z.mod_small. assert (0 < 2 ^ 64) by reflexivity. lia. }
  assert (R0 : 65 <= row_words (map (entry base N 0) (seq 0 64))).
  { clear - E0 HB HN HG. unfold row_words. rewrite map_map. cbn [seq map zsum fold_right]. rewrite E0. pose proof (words_big base (proj1 HB)).
    pose proof (zsum_ge _ (fun j => words (entry base N 0 j)) 1 (seq 1 63) (fun j _ => words_pos _ (entry_nonzero base N 0 j HN HG))) as L. cbn [seq map zsum fold_right length] in L. lia. }
  set (f := fun i => row_words (map (entry base N i) (seq 0 64))) in *. change (65 <= f 0%nat) in R0.
  pose proof (zsum_ge _ f 64 (seq 1 (n - 1)) (fun i _ => proj1 (RW i))) as LO1. rewrite seq_length in LO1.
  assert (SP : zsum (map f (seq 0 n)) = f 0%nat + zsum (map f (seq 1 (n - 1)))).
  { assert (Hk : n = Datatypes.S (n - 1)) by (clear - Hn R POS; lia). rewrite Hk at 1. reflexivity. }
  rewrite SP. clear - LO1 R0 R Hn POS. lia.
Qed.

(** a modulus of three words and a base of two: 2048 entries of one word are printed *)
Example C118_table_size_nonvacuous :
  let p := TestPreComputeTableSize 1 in tp_bytes p = 16384 /\ 16384 < bytes_of (pretable (2 ^ 64 + 1) (2 ^ 130 + 1) (Z.to_nat (tp_rows p))).
Proof.
  intros p. assert (Y : tp_bytes p = 16384) by reflexivity. split; [exact Y|]. rewrite <- Y.
  refine (proj2 (proj2 (proj2 (proj2 (proj2 (C118_table_size_partial 1 (2 ^ 64 + 1) (2 ^ 130 + 1) _ _ _))))) _ _); [split; reflexivity || discriminate|reflexivity|reflexivity|reflexivity|split; reflexivity || discriminate].
Qed.

(** The program prints the size of the table of its own parameters: too little for every one of the six sizes, by a
    factor of up to 32. *)
Theorem C118_table_size_refuted : forall setSize, In setSize table_sizes ->
  let p := TestPreComputeTableSize setSize in
  let t := pretable (sG TrustedSetup) (sN TrustedSetup) (Z.to_nat (tp_rows p)) in
  In p TestDifferentPrecomputationTableSize /\ tp_bytes p < bytes_of t <= 32 * tp_bytes p /\ tp_element p = 64 /\ exists row x, In row t /\ In x row /\ 2000 < bit_len x.
Proof.
  intros setSize HIn p t. destruct TrustedSetup_facts as (_ & HL & HG & _ & HC & _).
  assert (HS : 0 < setSize < 2 ^ 46) by (unfold table_sizes in HIn; cbn [In] in HIn; destruct HIn as [<-|[<-|[<-|[<-|[<-|[<-|[]]]]]]]; split; reflexivity).
  assert (GB : 2000 < bit_len (sG TrustedSetup)) by (apply Z.ltb_lt; vm_compute; reflexivity).
  subst t. set (G := sG TrustedSetup) in *. set (N := sN TrustedSetup) in *. clearbody G N.
  assert (G64 : 2 ^ 64 <= G).
  { unfold bit_len in GB. destruct (Z.eqb_spec G 0); [lia|]. rewrite Z.abs_eq in GB by lia. apply Z.log2_le_pow2; lia. }
  assert (W : words N = 32) by (unfold words; now rewrite HL).
  destruct (C118_table_size_partial setSize G N) as (R & _ & _ & _ & B & S); [lia|lia|exact HC|]. fold p in R, B, S.
  split; [now apply in_map|]. split; [split; [apply S; lia|rewrite <- W; exact (proj2 B)]|]. split; [reflexivity|].
  exists (map (entry G N 0) (seq 0 64)), G. split; [|split; [|exact GB]].
  - unfold pretable. apply in_map_iff. exists 0%nat. split; [reflexivity|]. apply in_seq. lia.
  - apply in_map_iff. exists 0%nat. split; [|apply in_seq; lia]. unfold entry. change (64 * Z.of_nat 0 + Z.of_nat 0) with 0. rewrite Z.pow_0_r, Z.pow_1_r. apply Z.mod_small. lia.
Qed.

Print Assumptions C118_table_size_partial.
Print Assumptions C118_table_size_refuted.
