(** Soundness of the symbolic runs of EvmSym. *)
From Coq Require Import ZArith Bool Lia List.
From Verif Require Import SolModel EvmModel EvmSym.
Import ListNotations.
Open Scope Z_scope.

(** ** bytes and words *)
Lemma W_pos : 0 < W. Proof. reflexivity. Qed.
Lemma W_256 : W = 256 ^ 32. Proof. reflexivity. Qed.

(** big endian digits of v, n of them *)
Definition digit (n : nat) (v : Z) (i : nat) : Z := (v / 256 ^ (Z.of_nat n - 1 - Z.of_nat i)) mod 256.
Lemma be_app : forall l x, be (l ++ [x]) = be l * 256 + x.
Proof. intros l x. unfold be. now rewrite fold_left_app. Qed.
Lemma be_digits : forall n v, 0 <= v -> be (map (digit n v) (seq 0 n)) = v mod 256 ^ Z.of_nat n.
Proof.
  induction n as [|n IH]; intros v Hv.
  - cbn [seq map Z.of_nat]. change (256 ^ 0) with 1. now rewrite Z.mod_1_r.
  - rewrite seq_S, map_app. cbn [map]. rewrite be_app, Nat.add_0_l.
    rewrite (map_ext_in _ (digit n (v / 256))).
    + rewrite IH by (apply Z.div_pos; lia).
      assert (Ed : digit (S n) v n = v mod 256).
      { unfold digit. replace (Z.of_nat (S n) - 1 - Z.of_nat n) with 0 by lia. change (256 ^ 0) with 1. now rewrite Z.div_1_r. }
      rewrite Ed. replace (Z.of_nat (S n)) with (Z.of_nat n + 1) by lia.
      rewrite Z.pow_add_r by lia. change (256 ^ 1) with 256. rewrite (Z.mul_comm (256 ^ Z.of_nat n)).
      rewrite Z.rem_mul_r by (try apply Z.pow_pos_nonneg; lia). ring.
    + intros i Hi. apply in_seq in Hi. unfold digit.
      replace (Z.of_nat (S n) - 1 - Z.of_nat i) with (1 + (Z.of_nat n - 1 - Z.of_nat i)) by lia.
      rewrite Z.pow_add_r by lia. change (256 ^ 1) with 256. now rewrite Z.div_div by (try apply Z.pow_pos_nonneg; lia).
Qed.
Lemma byte_of_digit : forall v i, (i < 32)%nat -> byte_of v (Z.of_nat i) = digit 32 v i.
Proof.
  intros v i Hi. unfold byte_of, digit. change (Z.of_nat 32) with 32. replace (32 - 1 - Z.of_nat i) with (31 - Z.of_nat i) by lia.
  change 256 with (2 ^ 8) at 2. now rewrite <- Z.pow_mul_r by lia.
Qed.
Lemma be_bytes_of : forall v, 0 <= v < W -> be (be_bytes v) = v.
Proof.
  intros v Hv. unfold be_bytes. rewrite (map_ext_in _ (digit 32 v)).
  - rewrite be_digits by lia. change (Z.of_nat 32) with 32. rewrite <- W_256. now apply Z.mod_small.
  - intros i Hi. apply in_seq in Hi. apply byte_of_digit. lia.
Qed.
Lemma byte_of_0 : forall i, byte_of 0 i = 0.
Proof. intros i. unfold byte_of. now rewrite Zdiv_0_l. Qed.
Lemma be_range : forall l, Forall (fun b => 0 <= b < 256) l -> 0 <= be l < 256 ^ Z.of_nat (length l).
Proof.
  intros l. induction l as [|x l IH] using rev_ind; intros H; [cbn; lia|].
  apply Forall_app in H. destruct H as [H1 H2]. inversion_clear H2. specialize (IH H1).
  rewrite be_app, app_length. cbn [length]. replace (Z.of_nat (length l + 1)) with (Z.of_nat (length l) + 1) by lia.
  rewrite Z.pow_add_r by lia. change (256 ^ 1) with 256. nia.
Qed.

(** ** ranges of results *)
Lemma land_range : forall a b, 0 <= a < W -> 0 <= b < W -> 0 <= Z.land a b < W.
Proof.
  intros a b Ha Hb. assert (H0 : 0 <= Z.land a b) by (apply Z.land_nonneg; lia). split; [exact H0|].
  destruct (Z.eq_dec (Z.land a b) 0) as [->|N]; [apply W_pos|].
  unfold W. apply Z.log2_lt_pow2; [lia|]. pose proof (Z.log2_land a b ltac:(lia) ltac:(lia)) as L.
  assert (a <> 0). { intros ->. now rewrite Z.land_0_l in N. }
  assert (Z.log2 a < 256) by (apply Z.log2_lt_pow2; unfold W in Ha; lia). lia.
Qed.
Lemma lor_range : forall a b, 0 <= a < W -> 0 <= b < W -> 0 <= Z.lor a b < W.
Proof.
  intros a b Ha Hb. assert (H0 : 0 <= Z.lor a b) by (apply Z.lor_nonneg; lia). split; [exact H0|].
  destruct (Z.eq_dec (Z.lor a b) 0) as [->|N]; [apply W_pos|].
  unfold W. apply Z.log2_lt_pow2; [lia|]. rewrite Z.log2_lor by lia.
  assert (L : forall x, 0 <= x < W -> Z.log2 x < 256).
  { intros x Hx. destruct (Z.eq_dec x 0) as [->|]; [reflexivity|]. apply Z.log2_lt_pow2; unfold W in Hx; lia. }
  pose proof (L a Ha). pose proof (L b Hb). lia.
Qed.
Lemma b2z_range : forall b, 0 <= b2z b < W.
Proof. intros []; split; reflexivity || discriminate. Qed.
Lemma bin_range : forall o a b, 0 <= a < W -> 0 <= b < W -> 0 <= bin o a b < W.
Proof.
  intros o a b Ha Hb. destruct o; cbn [bin]; try apply b2z_range; try (apply Z.mod_pos_bound, W_pos).
  - destruct (Z.eqb_spec b 0); [split; [lia|apply W_pos]|]. split; [apply Z.div_pos; lia|].
    apply Z.le_lt_trans with a; [|lia]. apply Z.div_le_upper_bound; nia.
  - destruct (Z.eqb_spec b 0); [split; [lia|apply W_pos]|]. pose proof (Z.mod_pos_bound a b ltac:(lia)). lia.
  - now apply land_range.
  - now apply lor_range.
  - destruct (Z.ltb_spec a 256); [|split; [lia|apply W_pos]].
    assert (0 < 2 ^ a) by (apply Z.pow_pos_nonneg; lia).
    split; [apply Z.div_pos; lia|]. apply Z.le_lt_trans with b; [|lia]. apply Z.div_le_upper_bound; nia.
Qed.
Lemma un_range : forall o a, 0 <= a < W -> 0 <= un o a < W.
Proof. intros [] a Ha; cbn [un]; [apply b2z_range|lia]. Qed.

Section Sound.
Variable code : list Z.
Variable prg : prog.
Variable cd : list Z.
Variable value : Z.
Variable gas : nat -> Z.
Variable ecAdd : G1Point -> G1Point -> option G1Point.
Variable ecMul : G1Point -> Z -> option G1Point.
Variable ecPairing : list (G1Point * G2Point) -> option bool.
Notation prew := (pre_words ecAdd ecMul ecPairing).
Notation pre := (precompiled ecAdd ecMul ecPairing).
Hypothesis cd_bytes : Forall (fun b => 0 <= b < 256) cd.
Hypothesis cd_size : Z.of_nat (length cd) < W.
Hypothesis value_word : 0 <= value < W.
Hypothesis add_words : forall p q r, ecAdd p q = Some r -> 0 <= X1 r < W /\ 0 <= Y1 r < W.
Hypothesis mul_words : forall p s r, ecMul p s = Some r -> 0 <= X1 r < W /\ 0 <= Y1 r < W.

(** the word of the call data at offset a *)
Definition cdword (a : Z) : Z := be (cdcopy cd a 32).
Fixpoint eval (vars : nat -> Z) (e : exp) : Z :=
  match e with
  | EC z => z mod W
  | EV k => vars k
  | ECD a => cdword a
  | ESize => Z.of_nat (length cd)
  | EValue => value
  | EGas k => gas k mod W
  | EU o e => un o (eval vars e)
  | EB o e1 e2 => bin o (eval vars e1) (eval vars e2)
  end.
Definition extend (vars : nat -> Z) (k : nat) (ws : list Z) : nat -> Z :=
  fun i => if (k <=? i)%nat && (i <? k + length ws)%nat then nth (i - k) ws 0 else vars i.
Definition evald (vars : nat -> Z) (d : list (exp * Z)) : list Z := map (fun p => byte_of (eval vars (fst p)) (snd p)) d.
Fixpoint eval_tree (vars : nat -> Z) (t : tree) : option result :=
  match t with
  | TRet d => Some (RReturn (evald vars d))
  | TRev d => Some (RRevert (evald vars d))
  | THalt => Some RHalt
  | TGiveUp => None
  | TFuel => None
  | TIf e t f => if eval vars e =? 0 then eval_tree vars f else eval_tree vars t
  | TCall addr ws k ok fail =>
      match prew addr (map (eval vars) ws) with
      | CUnknown => None
      | CFail => eval_tree vars fail
      | COk l => eval_tree (extend vars k l) ok
      end
  end.

(** expressions over the first k result words *)
Fixpoint bnd (k : nat) (e : exp) : Prop :=
  match e with
  | EV i => (i < k)%nat
  | EU _ e => bnd k e
  | EB _ e1 e2 => bnd k e1 /\ bnd k e2
  | _ => True
  end.
Lemma bnd_le : forall k k' e, (k <= k')%nat -> bnd k e -> bnd k' e.
Proof. intros k k' e H. induction e; cbn; intuition lia. Qed.
Lemma eval_extend : forall vars k ws e, bnd k e -> eval (extend vars k ws) e = eval vars e.
Proof.
  intros vars k ws e. induction e; cbn [bnd eval]; intros H; try reflexivity.
  - unfold extend. destruct (Nat.leb_spec k k0); [lia|reflexivity].
  - now rewrite IHe.
  - destruct H. now rewrite IHe1, IHe2.
Qed.

(** environments of words *)
Definition wordy (vars : nat -> Z) : Prop := forall i, 0 <= vars i < W.
Lemma cdbyte_range : forall i, 0 <= cdbyte cd i < 256.
Proof.
  intros i. unfold cdbyte. destruct (nth_in_or_default (Z.to_nat i) cd 0) as [H| ->]; [|lia].
  now apply (proj1 (Forall_forall _ _) cd_bytes).
Qed.
Lemma cdword_range : forall a, 0 <= cdword a < W.
Proof.
  intros a. unfold cdword. rewrite W_256. replace 32 with (Z.of_nat (length (cdcopy cd a 32))) at 2.
  - apply be_range. unfold cdcopy. apply Forall_map, Forall_forall. intros x _. apply cdbyte_range.
  - unfold cdcopy. now rewrite map_length, seq_length.
Qed.
Lemma eval_range : forall vars e, wordy vars -> 0 <= eval vars e < W.
Proof.
  intros vars e Hv. induction e; cbn [eval]; try (apply Z.mod_pos_bound, W_pos); auto using cdword_range, un_range, bin_range. lia.
Qed.
Lemma extend_wordy : forall vars k ws, wordy vars -> Forall (fun w => 0 <= w < W) ws -> wordy (extend vars k ws).
Proof.
  intros vars k ws Hv Hw i. unfold extend. destruct ((k <=? i)%nat && (i <? k + length ws)%nat); [|apply Hv].
  destruct (nth_in_or_default (i - k) ws 0) as [H| ->]; [now apply (proj1 (Forall_forall _ _) Hw)|]. split; [lia|apply W_pos].
Qed.

Lemma const_eval : forall vars e z, const e = Some z -> eval vars e = z.
Proof. intros vars e z H. destruct e; cbn in H; try discriminate. now injection H as <-. Qed.
Lemma mk1_eval : forall vars o e, wordy vars -> eval vars (mk1 o e) = un o (eval vars e).
Proof.
  intros vars o e Hv. unfold mk1. destruct (const e) as [a|] eqn:E; [|reflexivity].
  rewrite (const_eval vars e a E). cbn [eval]. apply Z.mod_small, un_range. rewrite <- (const_eval vars e a E). now apply eval_range.
Qed.
Lemma mk2_eval : forall vars o e1 e2, wordy vars -> eval vars (mk2 o e1 e2) = bin o (eval vars e1) (eval vars e2).
Proof.
  intros vars o e1 e2 Hv. unfold mk2. destruct (const e1) as [a|] eqn:E1; [|reflexivity]. destruct (const e2) as [b|] eqn:E2; [|reflexivity].
  rewrite (const_eval vars e1 a E1), (const_eval vars e2 b E2). cbn [eval]. apply Z.mod_small, bin_range.
  - rewrite <- (const_eval vars e1 a E1). now apply eval_range.
  - rewrite <- (const_eval vars e2 b E2). now apply eval_range.
Qed.
Lemma mk1_bnd : forall k o e, bnd k e -> bnd k (mk1 o e).
Proof. intros k o e H. unfold mk1. destruct (const e); [exact I|exact H]. Qed.
Lemma mk2_bnd : forall k o e1 e2, bnd k e1 -> bnd k e2 -> bnd k (mk2 o e1 e2).
Proof. intros k o e1 e2 H1 H2. unfold mk2. destruct (const e1); [destruct (const e2); [exact I|]|]; now split. Qed.

(** ** memory *)
Definition memrel (vars : nat -> Z) (m : smem) (c : mem) : Prop :=
  forall i, c i = byte_of (eval vars (fst (sbyte m i))) (snd (sbyte m i)).
Definition membnd (k : nat) (m : smem) : Prop := Forall (fun p => bnd k (snd p)) m.

Lemma sbyte_bnd : forall k m i, membnd k m -> bnd k (fst (sbyte m i)).
Proof. intros k m i H. induction H as [|[o e] m He H IH]; [exact I|]. cbn [sbyte]. destruct (_ && _); [exact He|exact IH]. Qed.
Lemma slookup_bnd : forall k m a e, membnd k m -> slookup m a = Some e -> bnd k e.
Proof.
  intros k m a e H. induction H as [|[o e'] m He H IH]; cbn [slookup].
  - intros [= <-]. exact I.
  - destruct (o =? a); [intros [= <-]; exact He|]. destruct (_ || _); [exact IH|discriminate].
Qed.
Lemma slookup_sbyte : forall m a e vars j, slookup m a = Some e -> 0 <= j < 32 ->
  byte_of (eval vars (fst (sbyte m (a + j)))) (snd (sbyte m (a + j))) = byte_of (eval vars e) j.
Proof.
  intros m a e vars j. induction m as [|[o e'] m IH]; cbn [slookup sbyte].
  - intros [= <-] _. cbn [fst snd eval]. rewrite Zmod_0_l. now rewrite !byte_of_0.
  - destruct (Z.eqb_spec o a) as [->|N].
    + intros [= <-] Hj. destruct (Z.leb_spec a (a + j)); [|lia]. destruct (Z.ltb_spec (a + j) (a + 32)); [|lia]. cbn [andb fst snd].
      f_equal. lia.
    + destruct ((a + 32 <=? o) || (o + 32 <=? a)) eqn:E; [|discriminate]. intros Hl Hj.
      apply orb_true_iff in E. rewrite !Z.leb_le in E.
      destruct ((o <=? a + j) && (a + j <? o + 32)) eqn:E2; [|now apply IH].
      apply andb_true_iff in E2. rewrite Z.leb_le, Z.ltb_lt in E2. lia.
Qed.
Lemma mload_rel : forall vars m c a e, wordy vars -> memrel vars m c -> slookup m a = Some e -> mload c a = eval vars e.
Proof.
  intros vars m c a e Hv Hm Hl. rewrite <- (be_bytes_of (eval vars e)) by now apply eval_range.
  unfold mload, mbytes, be_bytes. f_equal. change (Z.to_nat 32) with 32%nat. apply map_ext_in. intros i Hi. apply in_seq in Hi.
  rewrite Hm. apply slookup_sbyte; [exact Hl|lia].
Qed.
Lemma mbytes_rel : forall vars m c a n, memrel vars m c -> mbytes c a n = evald vars (sbytes m a n).
Proof. intros vars m c a n Hm. unfold mbytes, evald, sbytes. rewrite map_map. apply map_ext. intros i. apply Hm. Qed.
Lemma mstore_rel : forall vars m c a e, memrel vars m c -> memrel vars ((a, e) :: m) (mstore c a (eval vars e)).
Proof. intros vars m c a e Hm i. unfold mstore. cbn [sbyte]. destruct (_ && _); [reflexivity|apply Hm]. Qed.

(** a write of words, one after the other *)
Lemma be_bytes_length : forall w, length (be_bytes w) = 32%nat.
Proof. intros w. unfold be_bytes. now rewrite map_length, seq_length. Qed.
Lemma be_bytes_nth : forall w i, (i < 32)%nat -> nth i (be_bytes w) 0 = byte_of w (Z.of_nat i).
Proof.
  intros w i Hi. unfold be_bytes. rewrite (nth_indep _ 0 (byte_of w (Z.of_nat 0))) by (rewrite map_length, seq_length; exact Hi).
  rewrite map_nth with (f := fun i => byte_of w (Z.of_nat i)). now rewrite seq_nth.
Qed.
Lemma flat_length : forall ws, length (flat_map be_bytes ws) = (32 * length ws)%nat.
Proof. induction ws as [|w ws IH]; [reflexivity|]. cbn [flat_map length]. rewrite app_length, be_bytes_length, IH. lia. Qed.
Lemma mwrite_cons : forall c a w ws i, mwrite c a (flat_map be_bytes (w :: ws)) i = mwrite (mstore c a w) (a + 32) (flat_map be_bytes ws) i.
Proof.
  intros c a w ws i. unfold mwrite, mstore. rewrite !flat_length. cbn [length].
  replace (Z.of_nat (32 * S (length ws))) with (32 + Z.of_nat (32 * length ws)) by lia.
  cbn [flat_map]. pose proof (be_bytes_length w) as L.
  destruct (Z.leb_spec a i); destruct (Z.ltb_spec i (a + (32 + Z.of_nat (32 * length ws))));
    destruct (Z.leb_spec (a + 32) i); destruct (Z.ltb_spec i (a + 32 + Z.of_nat (32 * length ws)));
    destruct (Z.ltb_spec i (a + 32)); try lia; cbn [andb]; try reflexivity.
  - rewrite app_nth2 by lia. f_equal. lia.
  - rewrite app_nth1 by lia. rewrite be_bytes_nth by lia. f_equal. lia.
Qed.
Lemma memrel_ext : forall vars m c c', memrel vars m c -> (forall i, c' i = c i) -> memrel vars m c'.
Proof. intros vars m c c' H E i. rewrite E. apply H. Qed.
Lemma sresult_rel : forall ws vars m c a k, memrel vars m c -> (forall i, (i < length ws)%nat -> vars (k + i)%nat = nth i ws 0) ->
  memrel vars (sresult m a k (length ws)) (mwrite c a (flat_map be_bytes ws)).
Proof.
  induction ws as [|w ws IH]; intros vars m c a k Hm Hk.
  - cbn [length sresult flat_map]. apply (memrel_ext _ _ c); [exact Hm|]. intros i. unfold mwrite. cbn [length].
    destruct (Z.leb_spec a i); destruct (Z.ltb_spec i (a + Z.of_nat 0)); cbn [andb]; try reflexivity. lia.
  - cbn [length sresult]. apply (memrel_ext _ _ (mwrite (mstore c a w) (a + 32) (flat_map be_bytes ws))); [|apply mwrite_cons].
    apply IH.
    + pose proof (Hk 0%nat ltac:(cbn; lia)) as E. rewrite Nat.add_0_r in E. cbn [nth] in E. rewrite <- E.
      apply (mstore_rel vars m c a (EV k) Hm).
    + intros i Hi. specialize (Hk (S i) ltac:(cbn; lia)). cbn [nth] in Hk. rewrite <- Hk. f_equal. lia.
Qed.
Lemma szero_rel : forall n vars m c a, memrel vars m c -> memrel vars (szero m a n) (mwrite c a (flat_map be_bytes (repeat 0 n))).
Proof.
  induction n as [|n IH]; intros vars m c a Hm.
  - cbn [szero repeat flat_map]. apply (memrel_ext _ _ c); [exact Hm|]. intros i. unfold mwrite. cbn [length].
    destruct (Z.leb_spec a i); destruct (Z.ltb_spec i (a + Z.of_nat 0)); cbn [andb]; try reflexivity. lia.
  - cbn [szero repeat]. apply (memrel_ext _ _ (mwrite (mstore c a 0) (a + 32) (flat_map be_bytes (repeat 0 n)))); [|apply mwrite_cons].
    apply IH. apply (mstore_rel vars m c a (EC 0) Hm).
Qed.
Lemma szero_bnd : forall n k m a, membnd k m -> membnd k (szero m a n).
Proof. induction n as [|n IH]; intros k m a H; [exact H|]. cbn [szero]. apply IH. constructor; [exact I|exact H]. Qed.
Lemma sresult_bnd : forall n k k' m a, membnd k' m -> (k + n <= k')%nat -> membnd k' (sresult m a k n).
Proof. induction n as [|n IH]; intros k k' m a H L; [exact H|]. cbn [sresult]. apply IH; [|lia]. constructor; [cbn; lia|exact H]. Qed.
Lemma zero_bytes : forall n, flat_map be_bytes (repeat 0 n) = repeat 0 (32 * n).
Proof.
  induction n as [|n IH]; [reflexivity|]. cbn [repeat flat_map]. rewrite IH. replace (32 * S n)%nat with (32 + 32 * n)%nat by lia.
  rewrite repeat_app. f_equal.
Qed.
Lemma cdcopy_end : forall n, cdcopy cd (Z.of_nat (length cd)) n = repeat 0 (Z.to_nat n).
Proof.
  intros n. unfold cdcopy. generalize (Z.to_nat n) as k. intros k.
  rewrite <- (seq_length k 0) at 2. generalize (seq 0 k) as l. induction l as [|x l IH]; [reflexivity|].
  cbn [map length repeat]. f_equal; [|exact IH]. unfold cdbyte. apply nth_overflow. lia.
Qed.
Lemma swords_rel : forall n vars m c a ws, wordy vars -> memrel vars m c -> swords m a n = Some ws ->
  map (eval vars) ws = map (fun i => mload c (a + 32 * Z.of_nat i)) (seq 0 n).
Proof.
  induction n as [|n IH]; intros vars m c a ws Hv Hm H; cbn [swords] in H.
  - injection H as <-. reflexivity.
  - destruct (slookup m a) as [e|] eqn:El; [|discriminate]. destruct (swords m (a + 32) n) as [l|] eqn:Ew; [|discriminate].
    injection H as <-. cbn [seq map]. rewrite Z.add_0_r. f_equal.
    + symmetry. now apply (mload_rel vars m).
    + rewrite (IH vars m c _ _ Hv Hm Ew). rewrite <- seq_shift, map_map. apply map_ext. intros i. f_equal. lia.
Qed.
Lemma swords_bnd : forall n k m a ws, membnd k m -> swords m a n = Some ws -> Forall (bnd k) ws.
Proof.
  induction n as [|n IH]; intros k m a ws Hm H; cbn [swords] in H.
  - injection H as <-. constructor.
  - destruct (slookup m a) as [e|] eqn:El; [|discriminate]. destruct (swords m (a + 32) n) as [l|] eqn:Ew; [|discriminate].
    injection H as <-. constructor; [now apply (slookup_bnd k m a)|now apply (IH k m (a + 32))].
Qed.
(** the words the precompiled contracts read *)
Lemma word_at_mem : forall c a n i, 32 * (Z.of_nat i + 1) <= n -> word_at (mbytes c a n) i = mload c (a + 32 * Z.of_nat i).
Proof.
  intros c a n i H. unfold word_at, mload. f_equal. unfold mbytes. change (Z.to_nat 32) with 32%nat.
  apply map_ext_in. intros j Hj. apply in_seq in Hj.
  rewrite (nth_indep _ 0 (c (a + Z.of_nat 0))) by (rewrite map_length, seq_length; lia).
  rewrite map_nth with (f := fun i => c (a + Z.of_nat i)). rewrite seq_nth by lia. f_equal. lia.
Qed.
Lemma pre_rel : forall vars m c addr a n k ws, wordy vars -> memrel vars m c -> 0 <= n -> ready addr n k = true ->
  swords m a (arity addr n) = Some ws ->
  pre addr (mbytes c a n) = match prew addr (map (eval vars) ws) with COk l => COk (flat_map be_bytes l) | CFail => CFail | CUnknown => CUnknown end.
Proof.
  intros vars m c addr a n k ws Hv Hm Hn Hr Hw. rewrite (swords_rel _ vars m c a ws Hv Hm Hw).
  assert (Len : Z.of_nat (length (mbytes c a n)) = n) by (unfold mbytes; rewrite map_length, seq_length; lia).
  unfold precompiled. rewrite Len.
  assert (A : 32 * Z.of_nat (arity addr n) <= n /\ ((addr =? 8) && negb (n mod 192 =? 0)) = false).
  { unfold ready in Hr. destruct (Z.eqb_spec addr 6) as [->|]; [|destruct (Z.eqb_spec addr 7) as [->|]; [|destruct (Z.eqb_spec addr 8) as [->|]; [|discriminate]]].
    - apply andb_true_iff in Hr. rewrite !Z.leb_le in Hr. split; [cbn; lia|reflexivity].
    - apply andb_true_iff in Hr. rewrite !Z.leb_le in Hr. split; [cbn; lia|reflexivity].
    - cbn [andb] in Hr. rewrite !andb_true_iff in Hr. destruct Hr as [[Hr _] _]. rewrite Hr. split; [|reflexivity].
      unfold arity. pose proof (Z.mul_div_le n 32 ltac:(lia)). assert (0 <= n / 32) by (apply Z.div_pos; lia). lia. }
  destruct A as [A ->]. rewrite (map_ext_in (word_at (mbytes c a n)) (fun i => mload c (a + 32 * Z.of_nat i))); [reflexivity|].
  intros i Hi. apply in_seq in Hi. apply word_at_mem. lia.
Qed.
Lemma prew_rets : forall addr ws l, prew addr ws = COk l -> ready addr 192 64 = true -> length l = rets addr /\ Forall (fun w => 0 <= w < W) l.
Proof.
  intros addr ws l H Hr. unfold ready in Hr.
  destruct (Z.eqb_spec addr 6) as [->|]; [|destruct (Z.eqb_spec addr 7) as [->|]; [|destruct (Z.eqb_spec addr 8) as [->|]; [|discriminate]]].
  - destruct ws as [|x1 [|y1 [|x2 [|y2 [|]]]]]; try discriminate. cbn [pre_words] in H.
    destruct (ecAdd (G1 x1 y1) (G1 x2 y2)) as [p|] eqn:E; [|discriminate]. cbn [point] in H. injection H as <-.
    apply add_words in E. destruct E. split; [reflexivity|]. now repeat constructor.
  - destruct ws as [|x1 [|y1 [|x2 [|]]]]; try discriminate. cbn [pre_words] in H.
    destruct (ecMul (G1 x1 y1) x2) as [p|] eqn:E; [|discriminate]. cbn [point] in H. injection H as <-.
    apply mul_words in E. destruct E. split; [reflexivity|]. now repeat constructor.
  - cbn [pre_words] in H. assert (E : exists o, match o with Some b => COk [b2z b] | None => CFail end = COk l).
    { destruct ws as [|? [|? [|? [|? ws]]]]; eexists; exact H. }
    destruct E as [[b|] E]; [|discriminate]. injection E as <-. split; [reflexivity|]. constructor; [apply b2z_range|constructor].
Qed.
Lemma ready_any : forall addr n k, ready addr n k = true -> ready addr 192 64 = true.
Proof. intros addr n k H. unfold ready in *. destruct (addr =? 6), (addr =? 7), (addr =? 8); try reflexivity; discriminate. Qed.
Lemma ready_out : forall addr n k, ready addr n k = true -> 32 * Z.of_nat (rets addr) <= k.
Proof.
  intros addr n k H. unfold ready, rets in *. destruct (Z.eqb_spec addr 6) as [->|]; [|destruct (Z.eqb_spec addr 7) as [->|]].
  - apply andb_true_iff in H. rewrite !Z.leb_le in H. cbn. lia.
  - apply andb_true_iff in H. rewrite !Z.leb_le in H. cbn. lia.
  - rewrite !andb_true_iff, !Z.leb_le in H. destruct H as [[[-> _] _] H]. cbn. lia.
Qed.

(** ** simulation *)
Definition rel (vars : nat -> Z) (ss : sstate) (s : state) : Prop :=
  wordy vars /\ pc s = spc ss /\ stk s = map (eval vars) (sstk ss) /\ memrel vars (smm ss) (mm s) /\ tick s = stick ss /\
  Forall (bnd (sk ss)) (sstk ss) /\ membnd (sk ss) (smm ss).

Notation step := (step code prg cd value gas pre).
Notation run := (run code prg cd value gas pre).

Lemma map_cons_inv : forall (f : exp -> Z) l x r, x :: r = map f l -> exists e l', l = e :: l' /\ x = f e /\ r = map f l'.
Proof. intros f [|e l] x r H; [discriminate|]. injection H as -> ->. eauto. Qed.

(** what one symbolic step says about one step *)
Definition agrees (vars : nat -> Z) (r : sres) (q : state + result) : Prop :=
  match r with
  | SNext ss => exists s, q = inl s /\ rel vars ss s
  | SDone t => match eval_tree vars t with Some x => q = inr x | None => True end
  | SFork e s1 s2 => exists s, q = inl s /\ rel vars (if eval vars e =? 0 then s2 else s1) s
  | SCall addr ws k s1 s2 =>
      match prew addr (map (eval vars) ws) with
      | CUnknown => True
      | CFail => exists s, q = inl s /\ rel vars s2 s
      | COk l => exists s, q = inl s /\ rel (extend vars k l) s1 s
      end
  end.

Lemma next_agrees : forall vars ss s p st m st' m', rel vars ss s -> st' = map (eval vars) st -> memrel vars m m' ->
  Forall (bnd (sk ss)) st -> membnd (sk ss) m -> agrees vars (snext ss p st m) (next s p st' m').
Proof.
  intros vars ss s p st m st' m' (Hv & Hpc & Hst & Hm & Ht & Hb & Hmb) -> Hm' B1 B2. unfold snext, next. rewrite map_length.
  destruct (length st <=? 1024)%nat; [|reflexivity]. cbn [agrees]. eexists. split; [reflexivity|].
  unfold rel, mk. cbn. rewrite Ht. tauto.
Qed.
Lemma forall_nth : forall (P : exp -> Prop) l i e, Forall P l -> nth_error l i = Some e -> P e.
Proof. intros P l i e H E. apply nth_error_In in E. now apply (proj1 (Forall_forall _ _) H). Qed.
Lemma swap_forall : forall (P : exp -> Prop) a b st i, P a -> Forall P st -> nth_error st i = Some b ->
  Forall P (b :: firstn i st ++ a :: skipn (S i) st).
Proof.
  intros P a b st i Ha H E. constructor; [now apply (forall_nth P st i)|].
  rewrite <- (firstn_skipn i st) in H. apply Forall_app in H. destruct H as [H1 H2]. apply Forall_app. split; [exact H1|].
  constructor; [exact Ha|].
  clear -H2. revert i H2. induction st as [|x st IH]; intros i H2; [now rewrite skipn_nil|].
  destruct i as [|i]; cbn [skipn] in *; [now inversion H2|now apply IH].
Qed.

Ltac inv_stack H :=
  repeat match type of H with
  | Forall _ (_ :: _) => let H' := fresh "Bd" in inversion H as [|? ? H' H0']; subst; clear H; rename H0' into H
  end.

Ltac na := eapply next_agrees; try eassumption; try (cbn [map eval]; reflexivity).
Lemma sstep_sound : forall vars ss s, rel vars ss s -> agrees vars (sstep prg ss) (step s).
Proof.
  intros vars ss s R. pose proof R as (Hv & Hpc & Hst & Hm & Ht & Hb & Hmb).
  unfold sstep, EvmModel.step. rewrite Hpc. destruct (instr_at prg (spc ss)) as [i|]; [|reflexivity].
  rewrite Hst. destruct i; try reflexivity; try (destruct (sstk ss) as [|e1 st] eqn:Es; exact I).
  all: try (na; fail).
  - (* BIN *) destruct (sstk ss) as [|e1 [|e2 st]]; try exact I. cbn [map]. inv_stack Hb.
    na; [cbn [map]; now rewrite mk2_eval|]. constructor; [now apply mk2_bnd|assumption].
  - (* UN *) destruct (sstk ss) as [|e1 st]; try exact I. cbn [map]. inv_stack Hb.
    na; [cbn [map]; now rewrite mk1_eval|]. constructor; [now apply mk1_bnd|assumption].
  - (* CALLVALUE *) na. constructor; [exact I|assumption].
  - (* CALLDATALOAD *) destruct (sstk ss) as [|e1 st]; try exact I. cbn [map]. inv_stack Hb.
    destruct (const e1) as [a|] eqn:E; [|exact I]. rewrite (const_eval vars e1 a E).
    assert (Ec : be (cdcopy cd a 32) = eval vars (ECD a)) by (cbn [eval]; unfold cdword; reflexivity). rewrite Ec.
    na. constructor; [exact I|assumption].
  - (* CALLDATASIZE *) na. constructor; [exact I|assumption].
  - (* CALLDATACOPY *) destruct (sstk ss) as [|e1 [|e2 [|e3 st]]]; try exact I; try (destruct e2; exact I). cbn [map]. inv_stack Hb.
    destruct e2; try exact I. destruct (const e1) as [d|] eqn:E1; [|exact I]. destruct (const e3) as [n|] eqn:E3; [|exact I].
    destruct (Z.eqb_spec (n mod 32) 0) as [En|]; [|exact I]. rewrite (const_eval vars e1 d E1), (const_eval vars e3 n E3). cbn [eval].
    rewrite cdcopy_end.
    assert (Hn : 0 <= n < W) by (rewrite <- (const_eval vars e3 n E3); now apply eval_range).
    replace (Z.to_nat n) with (32 * Z.to_nat (n / 32))%nat.
    + rewrite <- zero_bytes. na; [now apply szero_rel|now apply szero_bnd].
    + assert (0 <= n / 32) by (apply Z.div_pos; lia). pose proof (Z.div_mod n 32 ltac:(lia)). lia.
  - (* POP *) destruct (sstk ss) as [|e1 st]; try exact I. cbn [map]. inv_stack Hb. na.
  - (* MLOAD *) destruct (sstk ss) as [|e1 st]; try exact I. cbn [map]. inv_stack Hb.
    destruct (const e1) as [a|] eqn:E; [|exact I]. destruct (slookup (smm ss) a) as [e|] eqn:El; [|exact I].
    rewrite (const_eval vars e1 a E), (mload_rel vars (smm ss) (mm s) a e Hv Hm El).
    na. constructor; [now apply (slookup_bnd _ (smm ss) a)|assumption].
  - (* MSTORE *) destruct (sstk ss) as [|e1 [|e2 st]]; try exact I. cbn [map]. inv_stack Hb.
    destruct (const e1) as [a|] eqn:E; [|exact I]. rewrite (const_eval vars e1 a E).
    na; [now apply mstore_rel|]. constructor; assumption.
  - (* JUMP *) destruct (sstk ss) as [|e1 st]; try exact I. cbn [map]. inv_stack Hb.
    destruct (const e1) as [d|] eqn:E; [|exact I]. rewrite (const_eval vars e1 d E).
    unfold sjump, jump, is_dest. destruct (instr_at prg d) as [[]|]; try reflexivity. na.
  - (* JUMPI *) destruct (sstk ss) as [|e1 [|e2 st]]; try exact I; try (destruct (const e2); exact I). cbn [map]. inv_stack Hb.
    destruct (const e2) as [c|] eqn:E2; (destruct (const e1) as [d|] eqn:E1; [|exact I]); rewrite (const_eval vars e1 d E1).
    + rewrite (const_eval vars e2 c E2). destruct (c =? 0); [na|].
      unfold sjump, jump, is_dest. destruct (instr_at prg d) as [[]|]; try reflexivity. na.
    + unfold jump, is_dest, next. rewrite map_length.
      destruct (instr_at prg d) as [[]|]; try exact I. destruct (length st <=? 1024)%nat eqn:L; [|exact I]. cbn [andb agrees].
      destruct (eval vars e2 =? 0); eexists; (split; [reflexivity|]); unfold rel, mk; cbn; rewrite Ht; tauto.
  - (* GAS *) rewrite Ht. na. constructor; [exact I|assumption].
  - (* PUSH *) destruct ((0 <=? v) && (v <? W)) eqn:E; [|exact I]. apply andb_true_iff in E. rewrite Z.leb_le, Z.ltb_lt in E.
    na; [cbn [map eval]; now rewrite Z.mod_small|]. constructor; [exact I|assumption].
  - (* DUP *) rewrite nth_error_map. destruct (nth_error (sstk ss) (n - 1)) as [e|] eqn:E; [|reflexivity]. cbn [option_map].
    na. constructor; [now apply (forall_nth _ (sstk ss) (n - 1))|assumption].
  - (* SWAP *) destruct (sstk ss) as [|e1 st]; [exact I|]. cbn [map]. inv_stack Hb. rewrite nth_error_map.
    destruct (nth_error st (n - 1)) as [e|] eqn:E; [|reflexivity]. cbn [option_map].
    na.
    + cbn [map]. rewrite map_app. cbn [map]. now rewrite firstn_map, skipn_map.
    + destruct n as [|n]; [|].
      * destruct st as [|x st]; [discriminate|]. cbn in E. injection E as ->. cbn. inversion_clear Hb. repeat (constructor; auto).
      * replace (S n - 1)%nat with n in * by lia. now apply swap_forall.
  - (* RETURN *) destruct (sstk ss) as [|e1 [|e2 st]]; try exact I. cbn [map].
    destruct (const e1) as [a|] eqn:E1; [|exact I]. destruct (const e2) as [n|] eqn:E2; [|exact I].
    rewrite (const_eval vars e1 a E1), (const_eval vars e2 n E2). cbn [agrees eval_tree]. now rewrite (mbytes_rel vars (smm ss)).
  - (* STATICCALL *) destruct (sstk ss) as [|e0 [|e1 [|e2 [|e3 [|e4 [|e5 st]]]]]]; try exact I. cbn [map]. inv_stack Hb.
    destruct (const e1) as [addr|] eqn:E1; [|exact I]. destruct (const e2) as [a|] eqn:E2; [|exact I].
    destruct (const e3) as [n|] eqn:E3; [|exact I]. destruct (const e4) as [d|] eqn:E4; [|exact I].
    destruct (const e5) as [k|] eqn:E5; [|exact I].
    rewrite (const_eval vars e1 _ E1), (const_eval vars e2 _ E2), (const_eval vars e3 _ E3), (const_eval vars e4 _ E4), (const_eval vars e5 _ E5).
    destruct (ready addr n k) eqn:Er; [|exact I]. destruct (Nat.ltb_spec (length st) 1024) as [L|]; [|exact I]. cbn [andb].
    destruct (swords (smm ss) a (arity addr n)) as [ws|] eqn:Ew; [|exact I].
    assert (Hn : 0 <= n < W) by (rewrite <- (const_eval vars e3 n E3); now apply eval_range).
    rewrite (pre_rel vars (smm ss) (mm s) addr a n k ws Hv Hm ltac:(lia) Er Ew). cbn [agrees].
    destruct (prew addr (map (eval vars) ws)) as [| |l] eqn:Ep; [exact I| |].
    + unfold next. cbn [length]. rewrite map_length. destruct (Nat.leb_spec (S (length st)) 1024); [|lia].
      eexists. split; [reflexivity|]. unfold rel, mk. cbn. rewrite Ht. assert (B1 : Forall (bnd (sk ss)) (EC 0 :: st)) by (constructor; [exact I|assumption]). tauto.
    + destruct (prew_rets addr _ l Ep (ready_any _ _ _ Er)) as [Ll Lw]. pose proof (ready_out _ _ _ Er) as Ho.
      rewrite firstn_all2 by (rewrite flat_length, Ll; lia).
      unfold next. cbn [length]. rewrite map_length. destruct (Nat.leb_spec (S (length st)) 1024); [|lia].
      eexists. split; [reflexivity|]. unfold rel. cbn. rewrite Ht. rewrite <- Ll. split; [now apply extend_wordy|].
      assert (Xs : forall l', Forall (bnd (sk ss)) l' -> map (eval (extend vars (sk ss) l)) l' = map (eval vars) l').
      { intros l' Hl. apply map_ext_in. intros x Hx. apply eval_extend. now apply (proj1 (Forall_forall _ _) Hl). }
      split; [reflexivity|]. split; [now rewrite Xs|]. split.
      * apply sresult_rel.
        -- intros i. rewrite (Hm i). f_equal. symmetry. apply eval_extend. now apply sbyte_bnd.
        -- intros i Hi. unfold extend. destruct (Nat.leb_spec (sk ss) (sk ss + i)); [|lia].
           destruct (Nat.ltb_spec (sk ss + i) (sk ss + length l)); [|lia]. cbn [andb]. f_equal. lia.
      * split; [reflexivity|]. split.
        -- constructor; [exact I|]. eapply Forall_impl; [|exact Hb]. intros x. apply bnd_le. lia.
        -- apply sresult_bnd; [|lia]. eapply Forall_impl; [|exact Hmb]. intros x. apply bnd_le. lia.
  - (* REVERT *) destruct (sstk ss) as [|e1 [|e2 st]]; try exact I. cbn [map].
    destruct (const e1) as [a|] eqn:E1; [|exact I]. destruct (const e2) as [n|] eqn:E2; [|exact I].
    rewrite (const_eval vars e1 a E1), (const_eval vars e2 n E2). cbn [agrees eval_tree]. now rewrite (mbytes_rel vars (smm ss)).
Qed.

Theorem srun_sound : forall fuel vars ss s r, rel vars ss s -> eval_tree vars (srun prg fuel ss) = Some r -> run fuel s = r.
Proof.
  induction fuel as [|f IH]; intros vars ss s r R H; cbn [srun] in H; [discriminate|].
  cbn [EvmModel.run]. pose proof (sstep_sound vars ss s R) as A. destruct (sstep prg ss) as [s'|t|e s1 s2|addr ws k s1 s2]; cbn [agrees] in A.
  - destruct A as (s0 & -> & R'). now apply (IH vars s').
  - rewrite H in A. now rewrite A.
  - destruct A as (s0 & -> & R'). cbn [eval_tree] in H. destruct (eval vars e =? 0); [now apply (IH vars s2)|now apply (IH vars s1)].
  - cbn [eval_tree] in H. destruct (prew addr (map (eval vars) ws)) as [| |l]; [discriminate| |]; destruct A as (s0 & -> & R').
    + now apply (IH vars s2).
    + now apply (IH (extend vars k l) s1).
Qed.
Lemma start_rel : forall vars, wordy vars -> rel vars sstart start.
Proof.
  intros vars Hv. unfold rel, sstart, start. cbn [pc stk mm tick spc sstk smm stick sk map].
  assert (M : memrel vars [] (fun _ => 0)). { intros a. cbn [sbyte fst snd eval]. rewrite Zmod_0_l. now rewrite byte_of_0. }
  assert (B : Forall (bnd 0) []) by constructor. assert (B' : membnd 0 []) by constructor. tauto.
Qed.
End Sound.

(** more fuel changes nothing *)
Lemma run_more : forall code prg cd value gas pre f g s r, run code prg cd value gas pre f s = r -> r <> ROutOfFuel -> (f <= g)%nat ->
  run code prg cd value gas pre g s = r.
Proof.
  induction f as [|f IH]; intros g s r H N L; cbn [run] in H; [congruence|].
  destruct g as [|g]; [lia|]. cbn [run]. destruct (step code prg cd value gas pre s) as [s'|x]; [|exact H]. apply IH; [exact H|exact N|lia].
Qed.
