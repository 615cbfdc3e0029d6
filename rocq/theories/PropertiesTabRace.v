(** C131: the goroutines of Table.Compute (/repo/precompute/precompute.go:36-100) share numbers only to read
    them, under every schedule of single reads and writes, and while the rest of the program goes on.

    The vocabulary is short. [clash]: two accesses of the same number, one of them a write. [reached]: some
    schedule leads there. The caller's numbers are those in memory before the call, [h0]. *)
From Coq Require Import ZArith Ascii Bool String List Lia.
From Verif Require Import GoBig GoBigFacts ListUpd Sched TableModel TableProofs TabRaceModel TabRaceProofs.
Import ListNotations.
Open Scope Z_scope.

Definition clash (x y : access) : Prop :=
  match x, y with
  | Rd _, Rd _ => False
  | Rd a, Wr b | Wr a, Rd b | Wr a, Wr b => a = b
  end.
(** the table [t] as it lies in memory: g is not used by Compute *)
Definition laid_out (h0 : memory) (rows : list addr) (np : addr) (t : Table) : Prop :=
  map (fun p => nth_error h0 p) rows = map Some (t_table t) /\ nth_error h0 np = Some (t_n t).

Definition compute_step (h0 : memory) (theirs rows : list addr) (np : addr) (t : Table) (x : Z) (R : nat) :=
  a_step rows np (t_chunk t) (list_ascii_of_string (big_bytes x)) R (res_at h0) (opt_at h0) theirs.
Definition compute_start (h0 : memory) (t : Table) (x : Z) (R : nat) : astate :=
  a_start h0 (t_chunk t) (list_ascii_of_string (big_bytes x)) R.

(** the table is one of NewTable, x fits into it, and the table is in memory; [theirs] are numbers from before the
    call, neither n nor in the table, that the rest of the program goes on changing *)
Definition fits (g n bound : Z) (numElements byteChunkSize : nat) (t : Table) (x : Z) (numRoutine : nat)
    (h0 : memory) (theirs rows : list addr) (np : addr) : Prop :=
  1 < n /\ NewTable g n bound numElements byteChunkSize = Ret t /\
  0 < x < 2 ^ (8 * Z.of_nat byteChunkSize *
               (bit_len bound * Z.of_nat numElements / (8 * Z.of_nat byteChunkSize))) /\
  (1 <= numRoutine)%nat /\ laid_out h0 rows np t /\
  (forall a, In a theirs -> (a < length h0)%nat /\ a <> np /\ ~ In a rows).
Definition reached (h0 : memory) (theirs rows : list addr) (np : addr) (t : Table) (x : Z) (R : nat) (s : astate) : Prop :=
  exists sched, run (compute_step h0 theirs rows np t x R) (Ret (compute_start h0 t x R)) sched = Some (Ret s).

Lemma lay : forall h0 rows np t, laid_out h0 rows np t -> map (get h0) rows = t_table t /\ Forall (fun p => (p < length h0)%nat) rows /\
  get h0 np = t_n t /\ (np < length h0)%nat.
Proof.
  intros h0 rows np t [Hr Hn]. split; [|split].
  - revert Hr. generalize (t_table t). induction rows as [|p l IH]; intros [|v vs] E; try discriminate E; [reflexivity|].
    cbn [map] in *. injection E as E1 E2. f_equal; [unfold get; now apply nth_error_nth|now apply IH].
  - revert Hr. generalize (t_table t). induction rows as [|p l IH]; intros [|v vs] E; try discriminate E; [constructor|].
    cbn [map] in *. injection E as E1 E2. constructor; [apply nth_error_Some; congruence|now apply (IH vs)].
  - split; [unfold get; now apply nth_error_nth|apply nth_error_Some; congruence].
Qed.
Lemma stills : forall (h0 : memory) theirs rows np, (forall a, In a theirs -> (a < length h0)%nat /\ a <> np /\ ~ In a rows) ->
  Forall (fun p => (p < length h0)%nat) rows -> (np < length h0)%nat ->
  Forall (still h0 theirs) rows /\ still h0 theirs np /\ forall a, In a theirs -> (a < length h0)%nat.
Proof.
  intros h0 theirs rows np H F L. split; [|split].
  - apply Forall_forall. intros p Ip. split; [exact (proj1 (Forall_forall _ _) F p Ip)|]. intros It. now apply (H p It).
  - split; [exact L|]. intros It. now destruct (H np It) as (_ & E & _).
  - intros a Ia. apply (H a Ia).
Qed.
Lemma facts : forall g n bound numElements byteChunkSize t x R h0 theirs rows np,
  fits g n bound numElements byteChunkSize t x R h0 theirs rows np -> let bs := list_ascii_of_string (big_bytes x) in
  t_n t = n /\ tbl_ok g n t /\ (length bs <= t_chunk t * length (t_table t))%nat /\ bval bs = x.
Proof.
  intros g n bound numElements byteChunkSize t x R h0 theirs rows np (Hn & E & [Hx Hb] & HR & HL). cbv zeta. destruct (NewTable_ok g n bound numElements byteChunkSize t ltac:(lia) E) as (Hok & Ec & El).
  split; [apply Hok|]. split; [exact Hok|]. split; [|rewrite big_bytes_bval; lia].
  apply big_bytes_length. rewrite Z.abs_eq by lia. change 256 with (2 ^ 8). rewrite <- Z.pow_mul_r by lia.
  rewrite Nat2Z.inj_mul, Z.mul_assoc. rewrite Ec, El, Z2Nat.id; [exact Hb|].
  destruct (Nat.eq_dec byteChunkSize 0) as [->|Hc]; [rewrite Z.mul_0_r, Zdiv_0_r; lia|].
  apply Z.div_pos; [|lia]. apply Z.mul_nonneg_nonneg; [apply bit_len_nonneg|lia].
Qed.

Lemma reached_inv : forall g n bound num c t x R h0 theirs rows np s,
  fits g n bound num c t x R h0 theirs rows np -> reached h0 theirs rows np t x R s ->
  exists m, inv h0 t (list_ascii_of_string (big_bytes x)) R theirs g s m.
Proof.
  intros g n bound num c t x R h0 theirs rows np s F [sched Hr]. destruct (facts _ _ _ _ _ _ _ _ _ _ _ _ F) as (En & Hok & Hl & _).
  destruct F as (Hn & _ & [Hx _] & HR & HL & HT). destruct (lay _ _ _ _ HL) as (L1 & L2 & L3 & L4). destruct (stills _ _ _ _ HT L2 L4) as (S2 & S4 & BT). subst n.
  destruct (start_inv h0 t _ R theirs BT g Hn Hok Hl x eq_refl Hx) as (m0 & I0).
  destruct (ghost_run (compute_step h0 theirs rows np t x R) a_ret a_idle _ (sim_step h0 rows np t _ R theirs L1 S2 L3 S4 ltac:(lia) BT g Hn Hok Hl) _ _ _ _ I0 Hr)
    as (s' & m' & E & I & _). injection E as <-. now exists m'.
Qed.

(** ** C131 *)
(** the call always ends, with a number of its own that holds the power, then and at every later moment *)
Theorem C131_compute : forall g n bound num c t x R h0 theirs rows np, fits g n bound num c t x R h0 theirs rows np ->
  always_ends (compute_step h0 theirs rows np t x R) a_ret a_idle (compute_start h0 t x R)
    (fun r => snd r = g ^ x mod n /\ (length h0 <= fst r)%nat).
Proof.
  intros g n bound num c t x R h0 theirs rows np F. destruct (facts _ _ _ _ _ _ _ _ _ _ _ _ F) as (En & Hok & Hl & Ev).
  destruct F as (Hn & _ & [Hx _] & HR & HL & HT). destruct (lay _ _ _ _ HL) as (L1 & L2 & L3 & L4). destruct (stills _ _ _ _ HT L2 L4) as (S2 & S4 & BT). subst n.
  destruct (start_inv h0 t _ R theirs BT g Hn Hok Hl x eq_refl Hx) as (m0 & I0).
  apply (ghost_ends _ _ _ _ (sim_step h0 rows np t _ R theirs L1 S2 L3 S4 ltac:(lia) BT g Hn Hok Hl) _ _ m0 I0).
  intros s m I. destruct (sim_progress h0 rows np t _ R theirs BT g Hl s m HR I) as [(v & E & Ea & Evv)|P]; [|now right].
  left. exists v. split; [exact E|]. rewrite Ev in Evv. split; [exact Evv|]. rewrite Ea. unfold res_at. lia.
Qed.

(** no number of the caller changes that the rest of the program leaves alone, and so not the table *)
Theorem C131_caller_kept : forall g n bound num c t x R h0 theirs rows np s, fits g n bound num c t x R h0 theirs rows np ->
  reached h0 theirs rows np t x R s -> forall a v, ~ In a theirs -> nth_error h0 a = Some v -> nth_error (a_mem s) a = Some v.
Proof.
  intros g n bound num c t x R h0 theirs rows np s F Hr a v Na Ea. destruct (reached_inv _ _ _ _ _ _ _ _ _ _ _ _ _ F Hr) as (m & I).
  destruct (facts _ _ _ _ _ _ _ _ _ _ _ _ F) as (_ & _ & Hl & _).
  destruct F as (_ & _ & _ & _ & _ & HT). assert (BT : forall b, In b theirs -> (b < length h0)%nat) by (intros b Ib; apply (HT b Ib)).
  destruct (inv_h0 h0 rows np t _ R theirs BT g Hl s m I) as [L H]. assert (La : (a < length h0)%nat) by (apply nth_error_Some; congruence).
  rewrite (nth_error_nth' _ 0) by lia. f_equal. change (get (a_mem s) a = v). rewrite H by (split; assumption). unfold get. now apply nth_error_nth.
Qed.

(** no two goroutines of the call race *)
Theorem C131_no_race : forall g n bound num c t x R h0 theirs rows np s, fits g n bound num c t x R h0 theirs rows np ->
  reached h0 theirs rows np t x R s -> forall j k y z, j <> k ->
  next_of rows np (res_at h0) (opt_at h0) s j = Some y -> next_of rows np (res_at h0) (opt_at h0) s k = Some z -> ~ clash y z.
Proof.
  intros g n bound num c t x R h0 theirs rows np s F Hr j k y z Hjk Ey Ez. destruct (reached_inv _ _ _ _ _ _ _ _ _ _ _ _ _ F Hr) as (m & I).
  destruct (facts _ _ _ _ _ _ _ _ _ _ _ _ F) as (_ & _ & Hl & _).
  destruct F as (_ & _ & _ & _ & HL & HT). destruct (lay _ _ _ _ HL) as (L1 & L2 & L3 & L4). destruct (stills _ _ _ _ HT L2 L4) as (S2 & S4 & BT).
  assert (Ad : clash y z -> at_addr y = at_addr z) by (destruct y, z; cbn; intros; [contradiction|congruence..]).
  destruct (next_owned h0 rows np t _ R theirs S2 S4 g s m j y I Ey) as [[Y1 [Y2 _]]|Oy], (next_owned h0 rows np t _ R theirs S2 S4 g s m k z I Ez) as [[Z1 [Z2 _]]|Oz];
    intros C; pose proof (Ad C) as E.
  - rewrite Y1, Z1 in C. exact C.
  - assert (length h0 <= at_addr z)%nat by (exact (proj1 (owns_ours h0 rows np t _ R theirs BT g Hl s m k _ I Oz))). lia.
  - assert (length h0 <= at_addr y)%nat by (exact (proj1 (owns_ours h0 rows np t _ R theirs BT g Hl s m j _ I Oy))). lia.
  - rewrite E in Oy. apply Hjk. exact (owns_one h0 rows np t _ R theirs BT g Hl s m j k _ I Oy Oz).
Qed.

(** nor do they race with the rest of the program: they use none of the numbers it made or goes on changing, and
    write only numbers that were not there before *)
Theorem C131_private : forall g n bound num c t x R h0 theirs rows np s, fits g n bound num c t x R h0 theirs rows np ->
  reached h0 theirs rows np t x R s -> forall k y, next_of rows np (res_at h0) (opt_at h0) s k = Some y ->
  ~ In (at_addr y) theirs /\ ~ In (at_addr y) (a_other s) /\ forall a, y = Wr a -> (length h0 <= a)%nat.
Proof.
  intros g n bound num c t x R h0 theirs rows np s F Hr k y Ey. destruct (reached_inv _ _ _ _ _ _ _ _ _ _ _ _ _ F Hr) as (m & I).
  destruct (facts _ _ _ _ _ _ _ _ _ _ _ _ F) as (_ & _ & Hl & _).
  destruct F as (_ & _ & _ & _ & HL & HT). destruct (lay _ _ _ _ HL) as (L1 & L2 & L3 & L4). destruct (stills _ _ _ _ HT L2 L4) as (S2 & S4 & BT).
  destruct (next_owned h0 rows np t _ R theirs S2 S4 g s m k y I Ey) as [[Y1 [Y2 Y3]]|Oy].
  - split; [exact Y3|]. split; [|intros a ->; discriminate Y1].
    intros Ia. pose proof (other_new h0 rows np t _ R theirs BT g Hl s m _ I Ia). lia.
  - assert (H : (length h0 <= at_addr y)%nat /\ ~ In (at_addr y) (a_other s)) by exact (owns_ours h0 rows np t _ R theirs BT g Hl s m k _ I Oy).
    destruct H as [H1 H2]. split; [intros It; apply BT in It; lia|]. split; [exact H2|]. intros a ->. exact H1.
Qed.

(** ** a case *)
(** two workers with a table of three rows, somebody else making a number meanwhile: a schedule of the start of
    the call in which both workers are in the middle of their computation, and the accesses they are about
    to make; then one that ends the call *)
Definition case_mem : memory := [1000003; 3; powmod 3 (2 ^ 16) 1000003; powmod 3 (2 ^ 32) 1000003; 7].
Definition case_first : list achoice :=
  [ASpin 0; AFeed; AFeed; ATake 1; ATake 0; AWork 1; AWork 0; AOther 5; AWork 0; AFeed; AWork 1; AOtherSet 8%nat 6; AOtherSet 4%nat 8].
Definition case_rest : list achoice :=
  [AWork 0; AWork 0; AWork 0; AWork 0; AGive 0; ATake 0; ARecv; AColl; AWork 1; AColl; AWork 0; AWork 0; AWork 0; AWork 0; AWork 0; AWork 0;
   AColl; AColl; AColl; AColl; AWork 1; AWork 1; AWork 1; AGive 0; AGive 1; ARecv; AColl; AColl; AColl; AColl; AColl; AColl;
   ARecv; AColl; AColl; AColl; AColl; AColl; AColl; AResult; AOtherSet 8%nat 9; AExit 1].
Example C131_case : exists t s s',
  fits 3 1000003 255 6 2 t 123456789012 2 case_mem [4]%nat [1; 2; 3]%nat 0%nat /\
  let step := compute_step case_mem [4]%nat [1; 2; 3]%nat 0%nat t 123456789012 2 in
  run step (Ret (compute_start case_mem t 123456789012 2)) case_first = Some (Ret s) /\
  a_workers s = [W94a 9%nat {| in_left := 1; in_right := 3; in_idx := 1 |}; W94a 10%nat {| in_left := 3; in_right := 5; in_idx := 0 |}] /\
  map (next_of [1; 2; 3]%nat 0%nat 5%nat (opt_at case_mem) s) [0; 1; 2]%nat = [None; Some (Rd 2%nat); Some (Rd 1%nat)] /\
  run step (Ret s) case_rest = Some (Ret s') /\ a_ret s' = Some (5%nat, powmod 3 123456789012 1000003) /\ nth 8 (a_mem s') 0 = 9 /\ nth 4 (a_mem s') 0 = 8.
Proof.
  do 3 eexists. split.
  { split; [reflexivity|]. split; [vm_compute; reflexivity|]. split; [split; reflexivity|]. split; [auto|]. split; [split; vm_compute; reflexivity|].
    intros a [<-|[]]. split; [vm_compute; auto|]. split; [discriminate|]. cbn. intuition discriminate. }
  cbv zeta. split; [vm_compute; reflexivity|]. split; [vm_compute; reflexivity|]. split; [vm_compute; reflexivity|].
  split; [vm_compute; reflexivity|]. split; [vm_compute; reflexivity|]. split; vm_compute; reflexivity.
Qed.

Print Assumptions C131_compute.
Print Assumptions C131_caller_kept.
Print Assumptions C131_no_race.
Print Assumptions C131_private.
