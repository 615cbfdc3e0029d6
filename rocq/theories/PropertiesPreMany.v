(** C133: ComputeFromTableParallel (/repo/precompute/comfromtable.go:135-207) may be called by many goroutines at the
    same time, with tables, moduli and bases that share numbers as they please.

    [sound h0 j v] (PreManyProofs.v): the arguments j lie in the memory h0 with a table GenPreTable has made of some
    base and N, x is positive, and v is base^x mod N. [clash] is that of PropertiesTabRace.v. *)
From Coq Require Import ZArith Bool List Lia.
From Verif Require Import GoBig GoBigFacts ListUpd Sched TableModel TableProofs TabRaceModel TabRaceProofs PropertiesTabRace PreRaceModel PreRaceProofs PreManyModel PreManyProofs.
Import ListNotations.
Open Scope Z_scope.

Definition arrives (jobs : list args) (h0 : memory) (st : mstate) : Prop :=
  exists sched, run (m_step jobs) (Ret (m_start jobs h0)) sched = Some (Ret st).

(** no step is one of waiting *)
Definition never (_ : mchoice) : bool := false.

Lemma arrives_inv : forall h0 jobs vals st, Forall2 (sound h0) jobs vals -> arrives jobs h0 st -> exists M, allinv h0 jobs vals st M.
Proof.
  intros h0 jobs vals st F [sched Hr]. destruct (all_start h0 jobs vals) as (M0 & I0).
  assert (Hs : forall s m c r, allinv h0 jobs vals s m -> m_step jobs s c = Some r ->
    exists s' m', r = Ret s' /\ allinv h0 jobs vals s' m' /\ (if never c then (m' <= m)%nat else (m' < m)%nat)).
  { intros s m c r I E. exact (all_step h0 jobs vals F s m c r I E). }
  destruct (ghost_run (m_step jobs) m_ret never _ Hs _ _ _ _ I0 Hr) as (s' & m' & E & I & _). injection E as <-. now exists m'.
Qed.

(** ** C133 *)
(** whatever the order of single steps, all calls return, each with its own number holding its own result *)
Theorem C133_all_return : forall h0 jobs vals, Forall2 (sound h0) jobs vals ->
  always_ends (m_step jobs) m_ret never (m_start jobs h0)
    (fun rs => map snd rs = vals /\ NoDup (map fst rs) /\ Forall (fun r => (length h0 <= fst r)%nat) rs).
Proof.
  intros h0 jobs vals F. destruct (all_start h0 jobs vals) as (M0 & I0).
  assert (Hs : forall s m c r, allinv h0 jobs vals s m -> m_step jobs s c = Some r ->
    exists s' m', r = Ret s' /\ allinv h0 jobs vals s' m' /\ (if never c then (m' <= m)%nat else (m' < m)%nat)).
  { intros s m c r I E. exact (all_step h0 jobs vals F s m c r I E). }
  apply (ghost_ends (m_step jobs) m_ret never _ Hs _ _ M0 I0). intros st M I.
  destruct (all_progress h0 jobs vals F st M I) as [(rs & E & H)|(E & c & r & H)]; [left; exists rs; now split|].
  right. split; [exact E|]. exists c, r. now split.
Qed.
(** no number that was there before changes *)
Theorem C133_kept : forall h0 jobs vals st, Forall2 (sound h0) jobs vals -> arrives jobs h0 st ->
  forall a v, nth_error h0 a = Some v -> nth_error (m_mem st) a = Some v.
Proof.
  intros h0 jobs vals st F A a v Ea. destruct (arrives_inv _ _ _ _ F A) as (M & own & ms & _ & _ & _ & L & Hh & _).
  assert (La : (a < length h0)%nat) by (apply nth_error_Some; congruence).
  rewrite (nth_error_nth' _ 0) by lia. unfold get in Hh. rewrite Hh by exact La. f_equal. now apply nth_error_nth.
Qed.
(** no two goroutines race, of the same call or of different ones *)
Theorem C133_no_race : forall h0 jobs vals st, Forall2 (sound h0) jobs vals -> arrives jobs h0 st ->
  forall i k i' k' y z, (i, k) <> (i', k') -> m_next jobs st i k = Some y -> m_next jobs st i' k' = Some z -> ~ clash y z.
Proof.
  intros h0 jobs vals st F A i k i' k' y z Hne Ey Ez Cl. destruct (arrives_inv _ _ _ _ F A) as (M & own & ms & _ & Lm & Lc & L & Hh & C).
  assert (Ad : at_addr y = at_addr z) by (destruct y, z; cbn in *; [contradiction|congruence..]).
  unfold m_next in *. destruct (nth_error jobs i) as [j|] eqn:Ej; [|discriminate Ey]. destruct (nth_error jobs i') as [j'|] eqn:Ej'; [|discriminate Ez].
  destruct (nth_error (m_calls st) i) as [[|cap prodp s]|] eqn:Ed; try discriminate Ey.
  destruct (nth_error (m_calls st) i') as [[|cap' prodp' s']|] eqn:Ed'; try discriminate Ez.
  destruct (val_at h0 jobs vals F _ _ Ej) as (v & Ev). destruct (val_at h0 jobs vals F _ _ Ej') as (v' & Ev').
  destruct (some_at _ ms i _ Lm ltac:(eapply nth_some_lt, Ej)) as (m & Em). destruct (some_at _ ms i' _ Lm ltac:(eapply nth_some_lt, Ej')) as (m' & Em').
  pose proof (C _ _ _ _ _ Ej Ev Ed Em) as Ci. pose proof (C _ _ _ _ _ Ej' Ev' Ed' Em') as Ci'.
  destruct (Nat.eq_dec i i') as [->|Hi].
  - rewrite Ej in Ej'. injection Ej' as <-. rewrite Ed in Ed'. injection Ed' as <- <- <-.
    assert (Hk : k <> k') by congruence. destruct (next_apart h0 _ _ _ _ _ _ _ _ _ k k' y z Ci Hk Ey Ez Ad) as [Y Z]. rewrite Y, Z in Cl. exact Cl.
  - destruct (next_is h0 _ _ _ _ _ _ _ _ _ k y Ci Ey) as [[Y Yb]|[Y1 Y2]], (next_is h0 _ _ _ _ _ _ _ _ _ k' z Ci' Ez) as [[Z Zb]|[Z1 Z2]].
    + rewrite Y, Z in Cl. exact Cl.
    + apply (Yb (at_addr z)); [exact Z1|congruence|congruence].
    + apply (Zb (at_addr y)); [exact Y1|congruence|congruence].
    + congruence.
Qed.

(** ** a case *)
(** two calls with the same table and N: one is in the middle of its work when the other begins *)
Definition mcase_mem (t : PreTable) : memory := 1000003 :: pt_base t.
Definition mcase_jobs (t : PreTable) : list args :=
  [Args [1; 2; 3; 4]%nat 0%nat (pt_n t) 1023; Args [1; 2; 3; 4]%nat 0%nat (pt_n t) 21].
Definition mcase_first : list mchoice :=
  [Begin 1; Do 1 (PWork 0); Do 1 (PWork 0); Begin 0; Do 0 (PWork 1); Do 0 (PWork 0); Do 0 (PWork 1); Do 1 (PWork 0); Do 1 (PWork 0)].
(** the first choice of the list that is possible, as often as there is one *)
Fixpoint finish (jobs : list args) (cs : list mchoice) (fuel : nat) (st : mstate) : list mchoice :=
  match fuel with
  | O => []
  | S f =>
      let fix pick l :=
        match l with
        | [] => []
        | c :: r => match m_step jobs st c with Some (Ret st') => c :: finish jobs cs f st' | _ => pick r end
        end in pick cs
  end.
Definition mcase_choices : list mchoice :=
  [Do 0 PMain; Do 1 PRecv; Do 0 (PWork 1); Do 1 PMain; Do 0 (PSend 1); Do 0 PRecv; Do 1 (PSend 0); Do 0 (PWork 0); Do 1 (PWork 0); Do 0 (PSend 0);
   Do 0 (PWork 2); Do 0 (PSend 2); Do 1 (PWork 1); Do 1 (PSend 1); Do 1 (PWork 2); Do 1 (PSend 2)].
Example C133_case : exists t st st',
  Forall2 (sound (mcase_mem t)) (mcase_jobs t) [powmod 3 1023 1000003; powmod 3 21 1000003] /\
  run (m_step (mcase_jobs t)) (Ret (m_start (mcase_jobs t) (mcase_mem t))) mcase_first = Some (Ret st) /\
  map (m_next (mcase_jobs t) st 0) [1; 2; 3]%nat = [Some (Rd 1%nat); Some (Rd 11%nat); None] /\
  map (m_next (mcase_jobs t) st 1) [1; 2]%nat = [Some (Wr 9%nat); None] /\
  run (m_step (mcase_jobs t)) (Ret st) (finish (mcase_jobs t) mcase_choices 200 st) = Some (Ret st') /\
  m_ret st' = Some [(14%nat, 698726); (8%nat, 321823)].
Proof.
  exists {| pt_base := [3; 807954; 96172; 778151]; pt_n := [0; 5; 10; 15] |}. do 2 eexists. split.
  { apply Forall2_cons; [|apply Forall2_cons; [|apply Forall2_nil]]; exists 3, 1000003, 20, 4; eexists;
      (split; [reflexivity|split; [reflexivity|split; [vm_compute; reflexivity|split; [vm_compute; reflexivity|split; [reflexivity|split; [reflexivity|vm_compute; reflexivity]]]]]]). }
  do 4 (split; [vm_compute; reflexivity|]). vm_compute. reflexivity.
Qed.

Print Assumptions C133_all_return.
Print Assumptions C133_kept.
Print Assumptions C133_no_race.
