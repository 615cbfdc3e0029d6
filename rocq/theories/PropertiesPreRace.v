(** C132: the goroutines of ComputeFromTableParallel (/repo/precompute/comfromtable.go:135-207) share numbers only
    to read them, under every schedule of single reads and writes, and while the rest of the program goes on.
    [clash] is that of PropertiesTabRace.v: two accesses of the same number, one of them a write. *)
From Coq Require Import ZArith Bool List Lia.
From Verif Require Import GoBig GoBigFacts ListUpd Sched TableModel TableProofs TabRaceModel TabRaceProofs PropertiesTabRace PreRaceModel PreRaceProofs.
Import ListNotations.
Open Scope Z_scope.

(** [theirs]: numbers in memory before the call, neither of the table nor N, that the rest of the program may go on
    changing during the call *)
Definition apart (h0 : memory) (theirs rows : list addr) (np : addr) : Prop :=
  NoDup theirs /\ forall a, In a theirs -> (a < length h0)%nat /\ a <> np /\ ~ In a rows.
(** a call: the table is one of GenPreTable and lies in memory with N, x is positive; [cap], [prodp] and [s0]
    are iCounter, the address of prod and the state in which the goroutines start *)
Definition call (base N bitLen tableSize : Z) (t : PreTable) (x : Z)
    (h0 : memory) (theirs rows : list addr) (np : addr) (cap : nat) (prodp : addr) (s0 : pstate) : Prop :=
  1 < N /\ 0 < x /\ GenPreTable base N bitLen tableSize = Ret t /\
  map (fun p => nth_error h0 p) rows = map Some (pt_base t) /\ nth_error h0 np = Some N /\
  apart h0 theirs rows np /\ p_start h0 theirs rows (pt_n t) x = Ret (cap, prodp, s0).
(** some schedule leads from the start to [s] *)
Definition reaches (np : addr) (cap : nat) (prodp : addr) (s0 s : pstate) : Prop :=
  exists sched, run (p_step np prodp cap) (Ret s0) sched = Some (Ret s).

Lemma map_get : forall (h0 : memory) rows vs, map (fun p => nth_error h0 p) rows = map Some vs ->
  map (get h0) rows = vs /\ Forall (fun p => (p < length h0)%nat) rows.
Proof.
  intros h0. induction rows as [|p l IH]; intros [|v vs] E; try discriminate E; [split; constructor|].
  cbn [map] in *. injection E as E1 E2. destruct (IH vs E2) as [H1 H2]. split.
  - f_equal; [unfold get; now apply nth_error_nth|exact H1].
  - constructor; [apply nth_error_Some; congruence|exact H2].
Qed.
Lemma apart_facts : forall (h0 : memory) theirs rows np, apart h0 theirs rows np -> Forall (fun p => (p < length h0)%nat) rows ->
  Forall (fun p => (p < length h0)%nat /\ ~ In p theirs) rows /\ ~ In np theirs /\ (forall a, In a theirs -> (a < length h0)%nat) /\ NoDup theirs.
Proof.
  intros h0 theirs rows np [Nd H] F. split; [|split; [|split; [|exact Nd]]].
  - apply Forall_forall. intros p Ip. split; [exact (proj1 (Forall_forall _ _) F p Ip)|]. intros It. destruct (H p It) as (_ & _ & E). now apply E.
  - intros It. destruct (H np It) as (_ & E & _). now apply E.
  - intros a Ia. apply (H a Ia).
Qed.
Lemma call_inv : forall base N bitLen ts t x h0 theirs rows np cap prodp s0, call base N bitLen ts t x h0 theirs rows np cap prodp s0 ->
  exists h1 m, prodp = length h1 /\ firstn (length h0) h1 = h0 /\ (length h0 <= length h1)%nat /\
    get h1 np = N /\ (np < length h1)%nat /\ ~ In np theirs /\ (forall a, In a theirs -> (a < length h0)%nat) /\ 1 < N /\
    pinv h1 N cap (base ^ x) theirs s0 m.
Proof.
  intros base N bitLen ts t x h0 theirs rows np cap prodp s0 (HN & Hx & E & Hr & Hn & Ha & Hs).
  pose proof (GenPreTable_ok base N bitLen ts t ltac:(lia) E) as Hok. destruct (map_get _ _ _ Hr) as [L1 L2].
  assert (L3 : get h0 np = N) by (unfold get; now apply nth_error_nth).
  assert (L4 : (np < length h0)%nat) by (apply nth_error_Some; congruence).
  destruct (apart_facts _ _ _ _ Ha L2) as (L2' & L5 & L6 & L7).
  destruct (p_start_inv h0 theirs rows np base N t x L1 L2' L3 L4 L5 L6 L7 HN Hok Hx) as (c & h1 & s & m & E1 & F & L & G & B & I & _).
  rewrite Hs in E1. injection E1 as -> -> ->. exists h1, m. repeat (split; [assumption || reflexivity|]). exact I.
Qed.
Lemma reaches_inv : forall base N bitLen ts t x h0 theirs rows np cap prodp s0 s,
  call base N bitLen ts t x h0 theirs rows np cap prodp s0 -> reaches np cap prodp s0 s ->
  exists h1 m, prodp = length h1 /\ firstn (length h0) h1 = h0 /\ (length h0 <= length h1)%nat /\
    get h1 np = N /\ (np < length h1)%nat /\ ~ In np theirs /\ (forall a, In a theirs -> (a < length h0)%nat) /\ 1 < N /\
    pinv h1 N cap (base ^ x) theirs s m.
Proof.
  intros base N bitLen ts t x h0 theirs rows np cap prodp s0 s C [sched Hr].
  destruct (call_inv _ _ _ _ _ _ _ _ _ _ _ _ _ C) as (h1 & m0 & Ep & F & L & G & B & B1 & B2 & N1 & I0). exists h1. subst prodp.
  destruct (ghost_run (p_step np (length h1) cap) (p_ret (length h1)) p_idle _ (psim_step h1 np N cap (base ^ x) theirs G B B1 N1) _ _ _ _ I0 Hr)
    as (s' & m' & E & I & _). injection E as <-. exists m'. repeat (split; [assumption || reflexivity|]). exact I.
Qed.

(** ** C132 *)
(** such a call starts its goroutines, and always ends, with a number of its own that holds the power, then
    and at every later moment *)
Theorem C132_compute : forall base N bitLen ts t x h0 theirs rows np, 1 < N -> 0 < x -> GenPreTable base N bitLen ts = Ret t ->
  map (fun p => nth_error h0 p) rows = map Some (pt_base t) -> nth_error h0 np = Some N -> apart h0 theirs rows np ->
  exists cap prodp s0, p_start h0 theirs rows (pt_n t) x = Ret (cap, prodp, s0) /\
    always_ends (p_step np prodp cap) (p_ret prodp) p_idle s0
      (fun r => snd r = base ^ x mod N /\ (length h0 <= fst r)%nat).
Proof.
  intros base N bitLen ts t x h0 theirs rows np HN Hx E Hr Hn Ha.
  pose proof (GenPreTable_ok base N bitLen ts t ltac:(lia) E) as Hok. destruct (map_get _ _ _ Hr) as [L1 L2].
  assert (L3 : get h0 np = N) by (unfold get; now apply nth_error_nth).
  assert (L4 : (np < length h0)%nat) by (apply nth_error_Some; congruence).
  destruct (apart_facts _ _ _ _ Ha L2) as (L2' & L5 & L6 & L7).
  destruct (p_start_inv h0 theirs rows np base N t x L1 L2' L3 L4 L5 L6 L7 HN Hok Hx) as (c & h1 & s & m & E1 & F & L & G & B & I & _).
  exists c, (length h1), s. split; [exact E1|].
  apply (ghost_ends _ _ _ _ (psim_step h1 np N c (base ^ x) theirs G B L5 HN) _ _ m I).
  intros s' m' I'. destruct (psim_progress h1 np N c (base ^ x) theirs B s' m' I') as [(v & Ev & Ea & Evv)|P]; [|now right].
  left. exists v. split; [exact Ev|]. split; [exact Evv|]. now rewrite Ea.
Qed.

(** no number changes but those the rest of the program changes; so neither the table nor N *)
Theorem C132_caller_kept : forall base N bitLen ts t x h0 theirs rows np cap prodp s0 s,
  call base N bitLen ts t x h0 theirs rows np cap prodp s0 -> reaches np cap prodp s0 s ->
  forall a v, ~ In a theirs -> nth_error h0 a = Some v -> nth_error (p_mem s) a = Some v.
Proof.
  intros base N bitLen ts t x h0 theirs rows np cap prodp s0 s C R a v Na Ea.
  destruct (reaches_inv _ _ _ _ _ _ _ _ _ _ _ _ _ _ C R) as (h1 & m & _ & F & L & _ & B & _ & _ & _ & I).
  assert (La : (a < length h0)%nat) by (apply nth_error_Some; congruence).
  destruct (pinv_h1 h1 np N cap (base ^ x) theirs B s m a I ltac:(lia) Na) as [L2 G]. rewrite (nth_error_nth' _ 0 L2). unfold get in G. rewrite G. f_equal.
  rewrite <- (firstn_skipn (length h0) h1), F, app_nth1 by exact La. now apply nth_error_nth.
Qed.

(** no two goroutines of the call race; goroutine 0 is the caller's *)
Theorem C132_no_race : forall base N bitLen ts t x h0 theirs rows np cap prodp s0 s,
  call base N bitLen ts t x h0 theirs rows np cap prodp s0 -> reaches np cap prodp s0 s ->
  forall j k y z, j <> k -> p_next_of np prodp s j = Some y -> p_next_of np prodp s k = Some z -> ~ clash y z.
Proof.
  intros base N bitLen ts t x h0 theirs rows np cap prodp s0 s C R j k y z Hjk Ey Ez.
  destruct (reaches_inv _ _ _ _ _ _ _ _ _ _ _ _ _ _ C R) as (h1 & m & -> & _ & _ & G & B & B1 & B2 & N1 & I).
  assert (Ad : clash y z -> at_addr y = at_addr z) by (destruct y, z; cbn; intros; [contradiction|congruence..]).
  destruct (pnext_owned h1 np N cap (base ^ x) theirs B B1 s m j y I Ey) as [[Y1 Y2]|Oy],
           (pnext_owned h1 np N cap (base ^ x) theirs B B1 s m k z I Ez) as [[Z1 Z2]|Oz]; intros Cl; pose proof (Ad Cl) as E.
  - rewrite Y1, Z1 in Cl. exact Cl.
  - pose proof (proj1 (powns_ours h1 np N cap (base ^ x) theirs B s m k _ I Oz)). destruct Y2. lia.
  - pose proof (proj1 (powns_ours h1 np N cap (base ^ x) theirs B s m j _ I Oy)). destruct Z2. lia.
  - rewrite E in Oy. apply Hjk. exact (powns_one h1 np N cap (base ^ x) theirs s m j k _ I Oy Oz).
Qed.

(** nor do they race with the rest of the program: they write only numbers that are neither the caller's nor
    made by somebody else, and read no number made by somebody else *)
Theorem C132_private : forall base N bitLen ts t x h0 theirs rows np cap prodp s0 s,
  call base N bitLen ts t x h0 theirs rows np cap prodp s0 -> reaches np cap prodp s0 s ->
  forall k y, p_next_of np prodp s k = Some y ->
  match y with
  | Rd a => ~ In a (p_other s)
  | Wr a => (length h0 <= a)%nat /\ ~ In a (p_other s)
  end.
Proof.
  intros base N bitLen ts t x h0 theirs rows np cap prodp s0 s C R k y Ey.
  destruct (reaches_inv _ _ _ _ _ _ _ _ _ _ _ _ _ _ C R) as (h1 & m & -> & _ & L & G & B & B1 & B2 & N1 & I).
  destruct (pnext_owned h1 np N cap (base ^ x) theirs B B1 s m k y I Ey) as [[Y1 Y2]|Oy].
  - rewrite Y1. intros Ho. exact (pother_new h1 np N cap (base ^ x) theirs s m _ I Ho Y2).
  - pose proof (powns_ours h1 np N cap (base ^ x) theirs B s m k _ I Oy) as [O1 O2]. destruct y; cbn [at_addr] in *; [exact O2|split; [lia|exact O2]].
Qed.

(** arguments it must not work with are refused before any goroutine starts: a table with columns of different
    lengths or without rows, and an x that is not positive *)
Theorem C132_refused : forall h0 theirs rows ns x,
  length rows <> length ns \/ rows = [] \/ x <= 0 -> p_start h0 theirs rows ns x = Panic.
Proof.
  intros h0 theirs rows ns x H. unfold p_start. destruct (Nat.eqb_spec (length rows) (length ns)) as [E|E]; cbn [negb]; [|reflexivity].
  destruct rows as [|p rows]; [reflexivity|]. cbn [length]. change (S (length rows) <? 1)%nat with false.
  destruct H as [H|[H|H]]; [contradiction|discriminate H|]. cbn match. destruct (Z.ltb_spec x 1); [reflexivity|lia].
Qed.

(** ** a case *)
(** a table of four rows, somebody else making a number meanwhile and changing that and another one: a schedule after which two goroutines are in
    the middle of Exp and the caller's of Mul, and the accesses they are about to make; then one that ends *)
Definition pcase_x : Z := 2 ^ 19 + 77.
Definition pcase_mem (t : PreTable) : memory := 1000003 :: pt_base t ++ [99].
Definition pcase_first : list pchoice :=
  [PWork 2; PWork 2; PWork 2; PWork 2; PWork 2; PWork 0; PSend 2; PWork 0; POther 5; PRecv; PMain; PWork 1; PWork 1; PWork 1; PWork 1].
Definition pcase_rest : list pchoice :=
  [PWork 1; PSend 1; PMain; PWork 0; PMain; PWork 0; PMain; PWork 3; POtherSet 14%nat 6; POtherSet 5%nat 7; PMain; PMain; PMain; PRecv; PMain; PMain; PMain; PMain; PMain; PMain; PMain;
   PWork 0; PSend 0; PWork 3; PWork 3; PWork 3; PWork 3; PSend 3; PRecv; PMain; PMain; PMain; PMain; PMain; PMain; PMain;
   PRecv; PMain; PMain; PMain; PMain; PMain; PMain; PMain].
Example C132_case : exists t s0 s s',
  call 3 1000003 20 4 t pcase_x (pcase_mem t) [5]%nat [1; 2; 3; 4]%nat 0%nat 3%nat 11%nat s0 /\
  run (p_step 0%nat 11%nat 3) (Ret s0) pcase_first = Some (Ret s) /\
  map (p_next_of 0%nat 11%nat s) [0; 1; 2; 3; 4]%nat = [Some (Rd 12%nat); Some (Rd 6%nat); Some (Wr 15%nat); None; None] /\
  run (p_step 0%nat 11%nat 3) (Ret s) pcase_rest = Some (Ret s') /\
  p_ret 11%nat s' = Some (11%nat, powmod 3 pcase_x 1000003) /\ nth 14 (p_mem s') 0 = 6 /\ nth 5 (p_mem s') 0 = 7.
Proof.
  do 4 eexists. split.
  { split; [reflexivity|]. split; [reflexivity|]. split; [vm_compute; reflexivity|]. split; [vm_compute; reflexivity|]. split; [vm_compute; reflexivity|].
    split; [split; [constructor; [intros []|constructor]|]|vm_compute; reflexivity].
    intros a [<-|[]]. split; [vm_compute; auto|]. split; [discriminate|]. vm_compute. intuition discriminate. }
  do 4 (split; [vm_compute; reflexivity|]). split; vm_compute; reflexivity.
Qed.
(** x = 0 with a good table, and a table that lost a row *)
Example C132_refused_case : p_start [1000003; 3; 9] [] [1; 2]%nat [0; 1] 0 = Panic /\ p_start [1000003; 3; 9] [] [1]%nat [0; 1] 3 = Panic /\
  exists r, p_start [1000003; 3; 9] [] [1; 2]%nat [0; 1] 1 = Ret r.
Proof. split; [reflexivity|]. split; [reflexivity|]. eexists. vm_compute. reflexivity. Qed.

Print Assumptions C132_compute.
Print Assumptions C132_caller_kept.
Print Assumptions C132_no_race.
Print Assumptions C132_private.
Print Assumptions C132_refused.
