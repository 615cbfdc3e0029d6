(** Properties C21, C22, C28-C33: SimpleExp, GCB and the precomputed tables. *)
From Coq Require Import ZArith Bool Lia String Ascii List.
From Verif Require Import GoBig GoBigFacts Spec AccFacts ExpModel ExpProofs Sched ListUpd TableModel TableProofs.
Import ListNotations.
Open Scope Z_scope.

(** ** C21 *)

(** Full statement: forall g x n, 1 < g -> 1 <= x -> 1 < n -> SimpleExp g x n = Ret (g ^ x mod n).
    It is false: the loop advances by 65 bits while it consumes words of 64 bits. *)
Theorem C21_SimpleExp_refuted : exists g x n, 1 < g /\ 1 <= x /\ 1 < n /\
  exists v, SimpleExp g x n = Ret v /\ v <> g ^ x mod n.
Proof.
  exists 2, (2 ^ 64), 7. split; [lia|]. split; [discriminate|]. split; [lia|]. exists 1.
  split; [vm_compute; reflexivity|]. intros H. rewrite <- powmod_spec in H by discriminate.
  vm_compute in H. discriminate.
Qed.
(** for every base and modulus the exponent 2^64 is taken for 0 *)
Theorem C21_SimpleExp_2_64 : forall g n, 1 < g -> 1 < n -> SimpleExp g (2 ^ 64) n = Ret (1 mod n).
Proof.
  intros g n Hg Hn. rewrite SimpleExp_law by (assumption || discriminate).
  replace (2 ^ 64 mod 2 ^ (64 * words_done (2 ^ 64))) with 0 by reflexivity. reflexivity.
Qed.

(** What holds: it always returns; invalid arguments panic; up to 4160 bits the result is the power
    with the exponent cut to 64 bits per 65 bits of length; hence it is right up to 64 bits. *)
Theorem C21_SimpleExp_partial : forall g x n,
  (~ (1 < g /\ 1 <= x /\ 1 < n) -> SimpleExp g x n = Panic) /\
  (1 < g -> 1 <= x -> 1 < n ->
     (exists v, SimpleExp g x n = Ret v) /\
     (bit_len x <= 4160 -> SimpleExp g x n = Ret (g ^ (x mod 2 ^ (64 * ((bit_len x + 64) / 65))) mod n)) /\
     (x < 2 ^ 64 -> SimpleExp g x n = Ret (g ^ x mod n))).
Proof.
  intros g x n. split.
  - intros H. unfold SimpleExp.
    destruct (Z.leb_spec g 1); [reflexivity|]. destruct (Z.leb_spec n 1); [reflexivity|].
    destruct (Z.ltb_spec x 1); [reflexivity|]. exfalso. apply H. lia.
  - intros Hg Hx Hn. split; [now apply SimpleExp_total|]. split; [intros Hb; now apply SimpleExp_law|].
    intros Hb. assert (Hl : bit_len x <= 64) by (apply bit_len_le_iff; [discriminate|rewrite Z.abs_eq; [exact Hb|lia]]).
    assert (H0 : 1 <= bit_len x).
    { unfold bit_len. destruct (Z.eqb_spec x 0); [lia|]. pose proof (Z.log2_nonneg (Z.abs x)). lia. }
    rewrite SimpleExp_law by lia. unfold words_done.
    replace ((bit_len x + 64) / 65) with 1 by (apply (Z.div_unique _ _ _ (bit_len x - 1)); lia).
    change (64 * 1) with 64. rewrite (Z.mod_small x); [reflexivity|]. split; [lia|exact Hb].
Qed.
Example C21_example : SimpleExp 3 (2 ^ 63 + 12345) 1000003 = Ret (powmod 3 (2 ^ 63 + 12345) 1000003).
Proof. vm_compute. reflexivity. Qed.
(** 70 bits is right again: the second word is reached *)
Example C21_example_70 : SimpleExp 3 (2 ^ 69 + 5) 1000003 = Ret (powmod 3 (2 ^ 69 + 5) 1000003).
Proof. vm_compute. reflexivity. Qed.

(** ** C22 *)

(** a slice of words is a well-formed big.Int when its top word is not zero *)
Definition normalised (ws : list Z) : Prop := ws = [] \/ last ws 0 <> 0.

(** Full statement: forall a b >= 0, GCB a b = (r, a', b') with r = Z.land a b, a' and b' normalised
    and of value a - r, b - r. It is false twice: bits 32..63 of every word are ignored, and an
    argument that becomes 0 keeps a zero word. *)
Theorem C22_GCB_refuted :
  (exists a b r a' b', 0 <= a /\ 0 <= b /\ GCB a b = (r, a', b') /\ r <> Z.land a b) /\
  (exists a b r a' b', 0 <= a < 2 ^ 32 /\ 0 <= b < 2 ^ 32 /\ GCB a b = (r, a', b') /\ ~ normalised a').
Proof.
  split.
  - exists (2 ^ 40 + 3), (2 ^ 40 + 1). do 3 eexists. split; [lia|]. split; [lia|]. split; [vm_compute; reflexivity|].
    vm_compute. congruence.
  - exists 5, 13. do 3 eexists. split; [lia|]. split; [lia|]. split; [vm_compute; reflexivity|].
    unfold normalised. intros [H|H]; [discriminate|]. apply H. reflexivity.
Qed.

(** called with twice the same pointer, the argument is not reduced to 0 but wraps around *)
Theorem C22_GCB_same_pointer_refuted : exists a r a', 0 <= a < 2 ^ 32 /\ GCB_same a = (r, a') /\
  words_val a' <> a - r.
Proof. exists 5. do 2 eexists. split; [lia|]. split; [vm_compute; reflexivity|]. vm_compute. congruence. Qed.

(** What holds: the result has exactly the common bits among the low 32 bits of each 64-bit word, and
    it has been subtracted from the values of both arguments. *)
Theorem C22_GCB_partial : forall a b, 0 <= a -> 0 <= b ->
  let '(r, a', b') := GCB a b in
  (forall i, 0 <= i -> Z.testbit r i = Z.testbit a i && Z.testbit b i && (i mod 64 <? 32)) /\
  words_val a' = a - r /\ words_val b' = b - r /\
  (a < 2 ^ 32 -> r = Z.land a b).
Proof.
  intros a b Ha Hb. pose proof (GCB_law a b Ha Hb) as H. destruct (GCB a b) as [[r a'] b'].
  destruct H as (Hr & Hbits & H1 & H2 & _ & _). repeat split; try lia; try assumption.
  intros Hlt. apply Z.bits_inj'. intros i Hi. rewrite Hbits, Z.land_spec by assumption.
  destruct (Z.lt_ge_cases i 32) as [L|L].
  - rewrite Z.mod_small by lia. replace (i <? 32) with true by (symmetry; apply Z.ltb_lt; lia). now rewrite andb_true_r.
  - assert (T : Z.testbit a i = false).
    { rewrite <- (Z.mod_small a (2 ^ 32)) by lia. apply Z.mod_pow2_bits_high. lia. }
    now rewrite T.
Qed.
(** the comment of the Go code: 1011 and 1100 give 1000 *)
Example C22_example : GCB 11 12 = (8, [3], [4]).
Proof. vm_compute. reflexivity. Qed.

(** ** C28 *)
Theorem C28_GenPreTable : forall base N bitLen tableSize, 0 < N ->
  (bitLen <= tableSize \/ tableSize <= 0 -> GenPreTable base N bitLen tableSize = Panic) /\
  (0 < tableSize < bitLen -> exists t, GenPreTable base N bitLen tableSize = Ret t /\
     length (pt_base t) = Z.to_nat tableSize /\ length (pt_n t) = Z.to_nat tableSize /\
     nth_error (pt_base t) 0 = Some base /\
     forall i, (i < Z.to_nat tableSize)%nat ->
       nth_error (pt_n t) i = Some (Z.of_nat i * (bitLen / tableSize)) /\
       exists b, nth_error (pt_base t) i = Some b /\
         ((0 < i)%nat -> b = base ^ (2 ^ (Z.of_nat i * (bitLen / tableSize))) mod N)).
Proof.
  intros base N bitLen ts HN. split; [apply GenPreTable_panic|].
  intros H. destruct (GenPreTable_rows base N bitLen ts HN H) as (t & E & L1 & L2 & H0 & Hn & Hb).
  exists t. split; [assumption|]. split; [assumption|]. split; [assumption|].
  split; [rewrite (nth_error_nth' _ 0) by lia; now rewrite H0|].
  intros i Hi. split.
  - rewrite (nth_error_nth' _ 0) by lia. now rewrite Hn.
  - exists (nth i (pt_base t) 0). split; [apply nth_error_nth'; lia|]. intros Hp. now rewrite Hb by lia.
Qed.
Example C28_example : GenPreTable 3 1000003 100 4 =
  Ret {| pt_base := [3; powmod 3 (2 ^ 25) 1000003; powmod 3 (2 ^ 50) 1000003; powmod 3 (2 ^ 75) 1000003];
         pt_n := [0; 25; 50; 75] |}.
Proof. vm_compute. reflexivity. Qed.

(** ** C29 *)
Theorem C29_ComputeFromTable : forall base N bitLen tableSize t x, 1 < N ->
  GenPreTable base N bitLen tableSize = Ret t ->
  (0 < x -> ComputeFromTable t x N = Ret (base ^ x mod N)) /\
  (x <= 0 -> ComputeFromTable t x N = Panic).
Proof.
  intros base N bitLen ts t x HN E. pose proof (GenPreTable_ok base N bitLen ts t ltac:(lia) E) as Hok. split.
  - intros Hx. now apply ComputeFromTable_ok.
  - intros Hx. destruct Hok as (L & L1 & _). unfold ComputeFromTable. rewrite L, Nat.eqb_refl. cbn [negb].
    replace (length (pt_n t) <? 1)%nat with false by (symmetry; apply Nat.ltb_ge; lia).
    now replace (x <? 1) with true by (symmetry; apply Z.ltb_lt; lia).
Qed.
(** an exponent longer than the table was made for *)
Example C29_example : exists t, GenPreTable 3 1000003 20 4 = Ret t /\
  ComputeFromTable t (2 ^ 90 + 77777) 1000003 = Ret (powmod 3 (2 ^ 90 + 77777) 1000003).
Proof. eexists. split; [vm_compute; reflexivity|]. vm_compute. reflexivity. Qed.

(** ** C30 *)
Theorem C30_ComputeFromTableParallel : forall base N bitLen tableSize t x, 1 < N ->
  GenPreTable base N bitLen tableSize = Ret t -> 0 < x ->
  exists s0, cp_init t x N = Ret s0 /\
    always_ends cp_step cp_ret (fun _ => false) s0 (fun v => v = base ^ x mod N).
Proof.
  intros base N bitLen ts t x HN E Hx. pose proof (GenPreTable_ok base N bitLen ts t ltac:(lia) E) as Hok.
  destruct (cp_init_inv base N t x HN Hok Hx) as (s0 & E0 & HI). exists s0. split; [assumption|].
  now apply cp_always.
Qed.
(** in particular no goroutine ever sends on the closed channel and the call cannot get stuck *)
Theorem C30_no_send_on_closed : forall base N bitLen tableSize t x s0, 1 < N ->
  GenPreTable base N bitLen tableSize = Ret t -> 0 < x -> cp_init t x N = Ret s0 ->
  ~ can_crash cp_step s0 /\ ~ can_deadlock cp_step cp_ret (fun _ => false) s0.
Proof.
  intros base N bitLen ts t x s0 HN E Hx E0.
  destruct (C30_ComputeFromTableParallel base N bitLen ts t x HN E Hx) as (s & Es & H).
  rewrite E0 in Es. injection Es as <-.
  split; [eapply always_ends_no_crash; exact H|eapply always_ends_no_deadlock; exact H].
Qed.
(** both functions refuse an x that is not positive and a table without rows or with columns of different lengths *)
Theorem C30_refused : forall t x N, length (pt_base t) <> length (pt_n t) \/ pt_base t = [] \/ x <= 0 ->
  cp_init t x N = Panic /\ ComputeFromTable t x N = Panic.
Proof.
  intros t x N H. unfold cp_init, ComputeFromTable. destruct (Nat.eqb_spec (length (pt_base t)) (length (pt_n t))) as [E|E]; cbn [negb]; [|split; reflexivity].
  destruct (Nat.ltb_spec (length (pt_base t)) 1) as [L|L]; [split; reflexivity|].
  destruct H as [H|[H|H]]; [contradiction|rewrite H in L; cbn in L; lia|]. destruct (Z.ltb_spec x 1); [split; reflexivity|lia].
Qed.
Example C30_refused_case : cp_init {| pt_base := [3; 96172]; pt_n := [0; 10] |} 0 1000003 = Panic /\
  exists s0, cp_init {| pt_base := [3; 96172]; pt_n := [0; 10] |} 1 1000003 = Ret s0.
Proof. split; [reflexivity|]. eexists. vm_compute. reflexivity. Qed.
(** a schedule in which the third goroutine is first *)
Example C30_example : exists t s0 s, GenPreTable 3 1000003 20 4 = Ret t /\
  cp_init t (2 ^ 19 + 77) 1000003 = Ret s0 /\
  run cp_step (Ret s0) [CPSend 2; CPSend 0; CPRecv; CPSend 3; CPSend 1; CPRecv; CPRecv; CPRecv] = Some (Ret s) /\
  cp_ret s = Some (powmod 3 (2 ^ 19 + 77) 1000003).
Proof. do 3 eexists. do 3 (split; [vm_compute; reflexivity|]). vm_compute. reflexivity. Qed.

(** ** C31 *)
Theorem C31_Table_Compute : forall g n bound numElements byteChunkSize t x numRoutine, 1 < n ->
  NewTable g n bound numElements byteChunkSize = Ret t ->
  0 < x < 2 ^ (8 * Z.of_nat byteChunkSize *
               (bit_len bound * Z.of_nat numElements / (8 * Z.of_nat byteChunkSize))) ->
  (1 <= numRoutine)%nat ->
  always_ends t_step t_ret t_idle (t_init t x numRoutine) (fun v => v = g ^ x mod n).
Proof.
  intros g n bound num c t x R Hn E [Hx Hb] HR. destruct (NewTable_ok g n bound num c t ltac:(lia) E) as (Hok & Ec & El).
  apply Compute_always; try assumption; try lia.
  rewrite Ec, El, Z2Nat.id; [assumption|].
  destruct (Nat.eq_dec c 0) as [->|Hc]; [rewrite Z.mul_0_r, Zdiv_0_r; lia|].
  apply Z.div_pos; [|lia]. apply Z.mul_nonneg_nonneg; [apply bit_len_nonneg|lia].
Qed.
(** two workers, three chunks *)
Example C31_example : exists t s, NewTable 3 1000003 255 6 2 = Ret t /\
  run t_step (Ret (t_init t (2 ^ 40 + 99) 2))
    [TSpin 0; TFeed; TFeed; TTake 1; TTake 0; TFeed; TGive 0; TColl; TTake 0; TGive 1; TGive 0; TColl; TColl; TResult; TExit 1]
    = Some (Ret s) /\ t_ret s = Some (powmod 3 (2 ^ 40 + 99) 1000003).
Proof. do 2 eexists. do 2 (split; [vm_compute; reflexivity|]). vm_compute. reflexivity. Qed.

(** ** C32 *)

(** Full statement: for every table made by NewTable for num elements up to bound, Compute on the
    product of any num such elements never crashes. It is false: the number of chunks is rounded
    down. *)
Theorem C32_table_covers_refuted : exists g n bound num c t xs,
  1 < n /\ NewTable g n bound num c = Ret t /\ length xs = num /\ Forall (fun x => 0 < x <= bound) xs /\
  can_crash t_step (t_init t (product xs) 1).
Proof.
  exists 2, 35, 255, 3%nat, 2%nat. eexists. exists [255; 254; 253].
  split; [lia|]. split; [vm_compute; reflexivity|]. split; [reflexivity|].
  split; [repeat constructor; lia|].
  exists [TFeed; TFeed; TTake 0; TGive 0; TTake 0]. vm_compute. reflexivity.
Qed.
(** What holds: when the chunk size divides the total bit length, every such product is handled. *)
Theorem C32_table_covers_partial : forall g n bound num c t xs R, 1 < n ->
  NewTable g n bound num c = Ret t -> length xs = num -> Forall (fun x => 0 < x <= bound) xs ->
  (8 * Z.of_nat c | bit_len bound * Z.of_nat num) -> (1 <= R)%nat ->
  always_ends t_step t_ret t_idle (t_init t (product xs) R) (fun v => v = g ^ product xs mod n).
Proof.
  intros g n bound num c t xs R Hn E Lx Fx Hd HR.
  assert (Hc : (c <> 0)%nat) by (intros ->; unfold NewTable in E; discriminate).
  apply (C31_Table_Compute g n bound num c); try assumption.
  rewrite <- Z.divide_div_mul_exact by (assumption || lia).
  rewrite Z.mul_comm, Z.div_mul by lia.
  assert (Hnum : (num <> 0)%nat).
  { intros ->. unfold NewTable in E. rewrite Z.mul_0_r, Zdiv_0_l in E. destruct (c =? 0)%nat; discriminate. }
  clear -Lx Fx Hnum. subst num. set (b := bit_len bound).
  assert (Hb : 0 <= b) by apply bit_len_nonneg.
  assert (W : forall l, Forall (fun x => 0 < x <= bound) l -> 0 < product l <= 2 ^ (b * Z.of_nat (length l))).
  { induction 1 as [|x l Hx Fl IH].
    - cbn [length]. change (product []) with 1. change (Z.of_nat 0) with 0. rewrite Z.mul_0_r, Z.pow_0_r. lia.
    - rewrite product_cons. cbn [length]. rewrite Nat2Z.inj_succ, Z.mul_succ_r, Z.pow_add_r by lia.
      pose proof (bit_len_bound bound). fold b in H. nia. }
  destruct Fx as [|x l Hx Fl]; [cbn in Hnum; congruence|].
  specialize (W l Fl). rewrite product_cons. cbn [length].
  rewrite Nat2Z.inj_succ, Z.mul_succ_r, Z.pow_add_r by lia.
  pose proof (bit_len_bound bound). fold b in H. nia.
Qed.
(** 12 bytes in chunks of 3 *)
Example C32_example : exists t, NewTable 3 1000003 65535 6 3 = Ret t /\ Z.divide (8 * 3) (bit_len 65535 * 6) /\
  length [65535; 2; 3; 65521; 5; 7] = 6%nat /\ Forall (fun x => 0 < x <= 65535) [65535; 2; 3; 65521; 5; 7].
Proof.
  eexists. split; [vm_compute; reflexivity|]. split; [exists 4; reflexivity|]. split; [reflexivity|].
  repeat constructor; lia.
Qed.

(** ** C33 *)

(** Full statement: forall x >= 0 covered by the table and every numRoutine >= 1, Compute returns.
    It is false for x = 0: nothing is ever sent to the collector, whatever the table and the number
    of workers; already the initial state has only busy-waiting steps. *)
Theorem C33_zero_hangs : forall t numRoutine,
  can_deadlock t_step t_ret t_idle (t_init t 0 numRoutine).
Proof.
  intros t R. exists [], (t_init t 0 R). split; [reflexivity|]. split; [reflexivity|].
  intros c st Hs. destruct c as [|w|w| | |w|w]; cbn in Hs; try discriminate.
  - destruct (nth_error (repeat WLoop R) w) as [[| |]|]; discriminate.
  - destruct (nth_error (repeat WLoop R) w) as [[| |]|] eqn:E; try discriminate.
    apply nth_error_In, repeat_spec in E. discriminate.
  - destruct (nth_error (repeat WLoop R) w) as [[| |]|]; try discriminate. injection Hs as <-. split; reflexivity.
  - destruct (nth_error (repeat WLoop R) w) as [[| |]|]; discriminate.
Qed.
Theorem C33_Compute_returns_refuted : exists g n bound num c t x R, 1 < n /\
  NewTable g n bound num c = Ret t /\ (1 <= R)%nat /\
  0 <= x < 2 ^ (8 * Z.of_nat c * (bit_len bound * Z.of_nat num / (8 * Z.of_nat c))) /\
  can_deadlock t_step t_ret t_idle (t_init t x R).
Proof.
  exists 3, 1000003, 65535, 6%nat, 3%nat. eexists. exists 0, 4%nat. split; [lia|]. split; [vm_compute; reflexivity|].
  split; [lia|]. split; [split; [lia|reflexivity]|]. apply C33_zero_hangs.
Qed.
(** no worker at all: the call never returns either *)
Theorem C33_no_workers : forall t x, can_deadlock t_step t_ret t_idle (t_init t x 0).
Proof.
  intros t x. exists [], (t_init t x 0). split; [reflexivity|]. split; [reflexivity|].
  intros c st Hs. destruct c as [|w|w| | |w|w]; cbn in Hs;
    try (destruct (list_ascii_of_string (big_bytes x)); discriminate);
    try (destruct w; discriminate); try discriminate.
Qed.
(** What holds: every positive exponent within the table. *)
Theorem C33_Compute_returns_partial : forall g n bound num c t x R, 1 < n ->
  NewTable g n bound num c = Ret t -> (1 <= R)%nat ->
  0 < x < 2 ^ (8 * Z.of_nat c * (bit_len bound * Z.of_nat num / (8 * Z.of_nat c))) ->
  ~ can_deadlock t_step t_ret t_idle (t_init t x R) /\ ~ can_crash t_step (t_init t x R) /\
  can_return t_step t_ret (t_init t x R) (g ^ x mod n).
Proof.
  intros g n bound num c t x R Hn E HR Hx.
  pose proof (C31_Table_Compute g n bound num c t x R Hn E Hx HR) as H.
  split; [eapply always_ends_no_deadlock; exact H|]. split; [eapply always_ends_no_crash; exact H|].
  destruct (always_ends_returns _ _ _ _ _ H) as (v & Hv & ->). exact Hv.
Qed.

Print Assumptions C21_SimpleExp_refuted.
Print Assumptions C21_SimpleExp_2_64.
Print Assumptions C21_SimpleExp_partial.
Print Assumptions C22_GCB_refuted.
Print Assumptions C22_GCB_same_pointer_refuted.
Print Assumptions C22_GCB_partial.
Print Assumptions C28_GenPreTable.
Print Assumptions C29_ComputeFromTable.
Print Assumptions C30_ComputeFromTableParallel.
Print Assumptions C30_no_send_on_closed.
Print Assumptions C30_refused.
Print Assumptions C31_Table_Compute.
Print Assumptions C32_table_covers_refuted.
Print Assumptions C32_table_covers_partial.
Print Assumptions C33_zero_hangs.
Print Assumptions C33_no_workers.
Print Assumptions C33_Compute_returns_partial.
Print Assumptions C33_Compute_returns_refuted.
