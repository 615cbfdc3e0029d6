(** Exact conditions for properties whose full statement fails: C32 and C33 (C48: PropertiesAnswers.v). *)
From Coq Require Import ZArith Bool Lia String Ascii List.
From Verif Require Import GoBig GoBigFacts Spec AccFacts Sched ListUpd TableModel TableProofs PropertiesExp.
Import ListNotations.
Open Scope Z_scope.

Definition at_feed (t : Table) (bs : list ascii) (r i : nat) (res ctr : Z) : tstate :=
  {| ts_table := t; ts_bytes := bs; ts_R := S r; ts_main := MFeed i; ts_in := []; ts_workers := repeat WLoop (S r); ts_out := []; ts_coll := CLoop res ctr |}.

(** one chunk handled by the first worker *)
Lemma one_chunk : forall t bs r i res ctr v, (0 < i)%nat -> t_n t <> 0 -> ctr <> 1 ->
  work_value t bs {| in_left := i - t_chunk t; in_right := i; in_idx := (length bs - i) / t_chunk t |} = Ret v ->
  exists res', run t_step (Ret (at_feed t bs r i res ctr)) [TFeed; TTake 0; TGive 0; TColl] = Some (Ret (at_feed t bs r (i - t_chunk t) res' (ctr - 1))).
Proof.
  intros t bs r i res ctr v Hi Hn Hc E. destruct i as [|i]; [lia|]. unfold at_feed. cbn [run]. unfold t_step at 1. cbn [ts_main ts_in ts_R length ts_table ts_bytes].
  replace (0 <? 4 * S r)%nat with true by (symmetry; apply Nat.ltb_lt; lia). unfold set_main, set_in. cbn [ts_table ts_bytes ts_R ts_main ts_in ts_workers ts_out ts_coll app].
  unfold t_step at 1. cbn [ts_table ts_bytes ts_R ts_main ts_in ts_workers ts_out ts_coll repeat nth_error]. rewrite E. cbn [bind].
  unfold set_worker, set_in. cbn [ts_table ts_bytes ts_R ts_main ts_in ts_workers ts_out ts_coll upd].
  unfold t_step at 1. cbn [ts_table ts_bytes ts_R ts_main ts_in ts_workers ts_out ts_coll nth_error length].
  replace (0 <? S r)%nat with true by (symmetry; apply Nat.ltb_lt; lia). unfold set_worker, set_out. cbn [ts_table ts_bytes ts_R ts_main ts_in ts_workers ts_out ts_coll app upd].
  unfold t_step at 1. cbn [ts_table ts_bytes ts_R ts_main ts_in ts_workers ts_out ts_coll].
  unfold go_mod. destruct (Z.eqb_spec (t_n t) 0); [contradiction|]. cbn [bind]. unfold set_coll, set_out. cbn [ts_table ts_bytes ts_R ts_main ts_in ts_workers ts_out ts_coll].
  replace (ctr - 1 =? 0) with false by (symmetry; apply Z.eqb_neq; lia). eexists. reflexivity.
Qed.
Lemma run_app : forall l l2 s s', run t_step (Ret s) l = Some (Ret s') -> run t_step (Ret s) (l ++ l2) = run t_step (Ret s') l2.
Proof.
  induction l as [|c l IH]; intros l2 s s' E; cbn [run app] in *; [congruence|]. destruct (t_step s c) as [[s1| |]|] eqn:Es; try discriminate; [|destruct l; discriminate|destruct l; discriminate].
  now apply IH.
Qed.
Lemma work_value_in : forall t bs q, (1 <= t_chunk t)%nat -> (q * t_chunk t < length bs)%nat -> (q < length (t_table t))%nat ->
  exists v, work_value t bs {| in_left := length bs - q * t_chunk t - t_chunk t; in_right := length bs - q * t_chunk t; in_idx := (length bs - (length bs - q * t_chunk t)) / t_chunk t |} = Ret v.
Proof.
  intros t bs q Hc Hq Hl. unfold work_value. cbn [in_left in_right in_idx]. rewrite go_slice_ret by lia. cbn [bind].
  replace (length bs - (length bs - q * t_chunk t))%nat with (q * t_chunk t)%nat by lia. rewrite Nat.div_mul by lia. rewrite go_index_nth by exact Hl. cbn [bind]. eexists. reflexivity.
Qed.
Lemma work_value_out : forall t bs q, (1 <= t_chunk t)%nat -> (q * t_chunk t < length bs)%nat -> (length (t_table t) <= q)%nat ->
  work_value t bs {| in_left := length bs - q * t_chunk t - t_chunk t; in_right := length bs - q * t_chunk t; in_idx := (length bs - (length bs - q * t_chunk t)) / t_chunk t |} = Panic.
Proof.
  intros t bs q Hc Hq Hl. unfold work_value. cbn [in_left in_right in_idx]. rewrite go_slice_ret by lia. cbn [bind].
  replace (length bs - (length bs - q * t_chunk t))%nat with (q * t_chunk t)%nat by lia. rewrite Nat.div_mul by lia.
  unfold go_index. rewrite (proj2 (nth_error_None _ _) Hl). reflexivity.
Qed.
Lemma chunks : forall t bs r, (1 <= t_chunk t)%nat -> t_n t <> 0 -> forall j res ctr, (j <= length (t_table t))%nat -> (length (t_table t) * t_chunk t < length bs)%nat -> Z.of_nat j < ctr ->
  exists sched res', run t_step (Ret (at_feed t bs r (length bs) res ctr)) sched = Some (Ret (at_feed t bs r (length bs - j * t_chunk t) res' (ctr - Z.of_nat j))).
Proof.
  intros t bs r Hc Hn j res ctr Hj Hl. induction j as [|j IH]; intros Hctr.
  - exists [], res. cbn [run]. rewrite Nat.mul_0_l, Nat.sub_0_r, Z.sub_0_r. reflexivity.
  - destruct IH as (sched & res1 & E); [lia|lia|]. assert (Hj' : (j * t_chunk t < length bs)%nat) by nia.
    destruct (work_value_in t bs j Hc Hj' ltac:(lia)) as (v & Ev).
    destruct (one_chunk t bs r (length bs - j * t_chunk t) res1 (ctr - Z.of_nat j) v ltac:(lia) Hn ltac:(lia) Ev) as (res2 & E2).
    exists (sched ++ [TFeed; TTake 0; TGive 0; TColl]), res2. rewrite (run_app _ _ _ _ E), E2. do 3 f_equal; lia.
Qed.

Lemma bval_lt : forall l, bval l < 256 ^ Z.of_nat (length l).
Proof.
  induction l as [|a l IH] using rev_ind; [reflexivity|]. rewrite bval_app, app_length, Nat2Z.inj_add, Z.pow_add_r by lia. cbn [length].
  assert (B : bval [a] < 256). { unfold bval. cbn [fold_left]. pose proof (N_ascii_bounded a). unfold byte_val. lia. }
  change (256 ^ Z.of_nat 1) with 256. lia.
Qed.
Lemma Compute_crashes : forall g n t x r, n <> 0 -> tbl_ok g n t -> 2 ^ (8 * Z.of_nat (t_chunk t) * Z.of_nat (length (t_table t))) <= Z.abs x ->
  can_crash t_step (t_init t x (S r)).
Proof.
  intros g n t x r Hn (En & Hc & Hl & _) Hx. set (bs := list_ascii_of_string (big_bytes x)).
  assert (Len : (length (t_table t) * t_chunk t < length bs)%nat).
  { apply Nat.nle_gt. intros L. pose proof (bval_lt bs) as B. unfold bs at 1 in B. rewrite big_bytes_bval in B.
    assert (P : 256 ^ Z.of_nat (length bs) <= 2 ^ (8 * Z.of_nat (t_chunk t) * Z.of_nat (length (t_table t)))); [|lia].
    change 256 with (2 ^ 8). rewrite <- Z.pow_mul_r by lia. apply Z.pow_le_mono_r; [lia|]. nia. }
  unfold t_init. fold bs. set (ctr := Z.of_nat (length bs / t_chunk t) + _).
  assert (Hctr : Z.of_nat (length (t_table t)) < ctr).
  { pose proof (Nat.div_mod (length bs) (t_chunk t) ltac:(lia)) as D. pose proof (Nat.mod_upper_bound (length bs) (t_chunk t) ltac:(lia)) as U.
    unfold ctr. destruct (Nat.eqb_spec (length bs mod t_chunk t) 0) as [E|E]; nia. }
  destruct (chunks t bs r Hc ltac:(congruence) (length (t_table t)) 1 ctr (le_n _) Len Hctr) as (sched & res & E).
  exists (sched ++ [TFeed; TTake 0]). unfold at_feed in E at 1. rewrite (run_app _ _ _ _ E). clear E.
  pose proof (work_value_out t bs (length (t_table t)) Hc Len (le_n _)) as W. unfold at_feed. set (i := (length bs - length (t_table t) * t_chunk t)%nat) in *.
  assert (Hi : (0 < i)%nat) by lia. clearbody i. destruct i as [|i]; [lia|].
  cbn [run]. unfold t_step at 1. cbn [ts_main ts_in ts_R length ts_table ts_bytes].
  replace (0 <? 4 * S r)%nat with true by (symmetry; apply Nat.ltb_lt; lia). unfold set_main, set_in. cbn [ts_table ts_bytes ts_R ts_main ts_in ts_workers ts_out ts_coll app].
  unfold t_step at 1. cbn [ts_table ts_bytes ts_R ts_main ts_in ts_workers ts_out ts_coll repeat nth_error]. rewrite W. reflexivity.
Qed.

(** ** C32 and C33: for which exponents Compute works, for every table made by NewTable *)
Theorem C33_exact : forall g n bound numElements c t x numRoutine, 1 < n -> NewTable g n bound numElements c = Ret t ->
  let capacity := 2 ^ (8 * Z.of_nat c * (bit_len bound * Z.of_nat numElements / (8 * Z.of_nat c))) in
  (x = 0 \/ numRoutine = 0%nat -> can_deadlock t_step t_ret t_idle (t_init t x numRoutine)) /\
  (capacity <= Z.abs x -> (1 <= numRoutine)%nat -> can_crash t_step (t_init t x numRoutine)) /\
  (0 < Z.abs x < capacity -> (1 <= numRoutine)%nat -> always_ends t_step t_ret t_idle (t_init t x numRoutine) (fun v => v = g ^ Z.abs x mod n)).
Proof.
  intros g n bound num c t x R Hn E capacity. destruct (NewTable_ok g n bound num c t ltac:(lia) E) as (Hok & Ec & El).
  assert (Cap : capacity = 2 ^ (8 * Z.of_nat (t_chunk t) * Z.of_nat (length (t_table t)))).
  { unfold capacity. rewrite Ec, El, Z2Nat.id; [reflexivity|]. destruct (Nat.eq_dec c 0) as [->|Hc]; [rewrite Z.mul_0_r, Zdiv_0_r; lia|].
    apply Z.div_pos; [|lia]. apply Z.mul_nonneg_nonneg; [apply bit_len_nonneg|lia]. }
  split; [|split].
  - intros [->| ->]; [apply C33_zero_hangs|apply C33_no_workers].
  - intros Hx HR. destruct R as [|r]; [lia|]. rewrite Cap in Hx. apply (Compute_crashes g n); try assumption; lia.
  - intros [Hx Hb] HR. replace (t_init t x R) with (t_init t (Z.abs x) R); [|assert (Bl : big_bytes (Z.abs x) = big_bytes x) by (unfold big_bytes, bit_len; rewrite Z.abs_involutive; destruct (Z.eqb_spec (Z.abs x) 0), (Z.eqb_spec x 0); try lia; reflexivity); unfold t_init; now rewrite Bl].
    apply Compute_always; try assumption. now rewrite <- Cap.
Qed.
(** a table of three chunks of two bytes: six bytes work, with either sign, seven do not *)
Example C33_exact_case : exists t, NewTable 3 1000003 255 6 2 = Ret t /\ can_crash t_step (t_init t (2 ^ 48) 4) /\
  always_ends t_step t_ret t_idle (t_init t (- (2 ^ 48 - 1)) 4) (fun v => v = 3 ^ (2 ^ 48 - 1) mod 1000003).
Proof.
  destruct (NewTable 3 1000003 255 6 2) as [t| |] eqn:E; try discriminate. exists t. split; [reflexivity|].
  destruct (C33_exact 3 1000003 255 6 2 t (2 ^ 48) 4 ltac:(lia) E) as (_ & B & _).
  destruct (C33_exact 3 1000003 255 6 2 t (- (2 ^ 48 - 1)) 4 ltac:(lia) E) as (_ & _ & A).
  split; [apply B; [vm_compute; discriminate|lia]|]. apply A; [split; reflexivity|lia].
Qed.

(** Compute handles every product of the elements a table was sized for exactly if the greatest such product fits. *)
Theorem C32_exact : forall g n bound num c t, 1 < n -> 0 < bound -> NewTable g n bound num c = Ret t ->
  ((forall xs numRoutine, length xs = num -> Forall (fun x => 0 < x <= bound) xs -> (1 <= numRoutine)%nat -> ~ can_crash t_step (t_init t (product xs) numRoutine)) <->
   bound ^ Z.of_nat num < 2 ^ (8 * Z.of_nat c * (bit_len bound * Z.of_nat num / (8 * Z.of_nat c)))).
Proof.
  intros g n bound num c t Hn Hb E. 
  assert (Rep : forall k, product (repeat bound k) = bound ^ Z.of_nat k).
  { induction k as [|k IH]; [reflexivity|]. cbn [repeat]. rewrite product_cons, IH, Nat2Z.inj_succ, Z.pow_succ_r by lia. reflexivity. }
  split.
  - intros H. apply Z.nle_gt. intros Le. apply (H (repeat bound num) 1%nat); [apply repeat_length| |lia|].
    + apply Forall_forall. intros x Hx. apply repeat_spec in Hx. lia.
    + rewrite Rep. destruct (C33_exact g n bound num c t (bound ^ Z.of_nat num) 1 Hn E) as (_ & B & _). apply B; [|lia].
      rewrite Z.abs_eq by (apply Z.pow_nonneg; lia). exact Le.
  - intros Lt xs R Lx Fx HR. assert (P : 0 < product xs <= bound ^ Z.of_nat num).
    { subst num. clear - Fx Hb. induction Fx as [|x xs Hx Fx IH]; [cbn; lia|]. rewrite product_cons. cbn [length]. rewrite Nat2Z.inj_succ, Z.pow_succ_r by lia. nia. }
    destruct (C33_exact g n bound num c t (product xs) R Hn E) as (_ & _ & A).
    eapply always_ends_no_crash. apply A; [|exact HR]. rewrite Z.abs_eq by lia. split; [lia|]. eapply Z.le_lt_trans; [exact (proj2 P)|exact Lt].
Qed.
(** Seven elements in chunks of three bytes; their 28 bits make one chunk. It is too small for elements up to 15 and large
    enough for elements up to 8. *)
Example C32_exact_case : exists t, NewTable 3 1000003 15 7 3 = Ret t /\ ~ 15 ^ 7 < 2 ^ (8 * 3 * (bit_len 15 * 7 / (8 * 3))) /\
  exists u, NewTable 3 1000003 8 7 3 = Ret u /\ 8 ^ 7 < 2 ^ (8 * 3 * (bit_len 8 * 7 / (8 * 3))) /\ ~ (8 * 3 | bit_len 8 * 7).
Proof.
  eexists. split; [vm_compute; reflexivity|]. split; [vm_compute; intros H; discriminate H|]. eexists. split; [vm_compute; reflexivity|]. split; [reflexivity|].
  intros [k H]. change (bit_len 8 * 7) with 28 in H. lia.
Qed.

Print Assumptions C33_exact.
Print Assumptions C32_exact.
