(** C136: one table may be used by many calls of Compute (/repo/precompute/precompute.go:37-77) at the same time,
    and so may tables that share numbers.

    [fits] and [clash] are those of PropertiesTabRace.v. *)
From Coq Require Import ZArith Bool String List Lia.
From Verif Require Import GoBig GoBigFacts ListUpd Sched TableModel TableProofs TabRaceModel TabRaceProofs PropertiesTabRace TabManyModel TabManyProofs.
Import ListNotations.
Open Scope Z_scope.
Local Notation length := List.length.

(** the arguments j lie in the memory h0 with a table NewTable has made of some g and n, x fits into it, and v is
    g^x mod n *)
Definition sound (h0 : memory) (j : targs) (v : Z) : Prop :=
  exists g n bound numElements byteChunkSize,
    fits g n bound numElements byteChunkSize (b_t j) (b_x j) (b_R j) h0 [] (b_rows j) (b_np j) /\ v = g ^ b_x j mod n.

Definition arrives (jobs : list targs) (h0 : memory) (st : tmany) : Prop :=
  exists sched, run (tm_step jobs) (Ret (tm_start jobs h0)) sched = Some (Ret st).

Lemma sounds : forall h0 jobs vals, Forall2 (sound h0) jobs vals -> Forall2 (good h0) jobs vals.
Proof.
  intros h0 jobs vals F. induction F as [|j v l l' (g & n & bound & num & c & Fi & Ev) _ IH]; constructor; [|exact IH].
  destruct (facts _ _ _ _ _ _ _ _ _ _ _ _ Fi) as (En & Hok & Hl & Eb).
  destruct Fi as (Hn & _ & [Hx _] & HR & HL & HT). destruct (lay _ _ _ _ HL) as (L1 & L2 & L3 & L4). destruct (stills _ _ _ _ HT L2 L4) as (S2 & S4 & BT). subst n.
  exists g. split; [|split; [exact Hx|unfold jbytes; rewrite Eb; exact Ev]].
  do 8 (split; [assumption|]). exact HR.
Qed.
Lemma arrives_inv : forall h0 jobs vals st, Forall2 (sound h0) jobs vals -> arrives jobs h0 st -> exists M, allinv h0 jobs vals st M.
Proof.
  intros h0 jobs vals st F [sched Hr]. apply sounds in F. destruct (all_start h0 jobs vals) as (M0 & I0).
  destruct (ghost_run (tm_step jobs) tm_ret tm_idle _ (all_step h0 jobs vals F) _ _ _ _ I0 Hr) as (s' & m' & E & I & _). injection E as <-. now exists m'.
Qed.

(** ** C136 *)
(** whatever the order of single steps, all calls return, each with its own number holding its own result *)
Theorem C136_all_return : forall h0 jobs vals, Forall2 (sound h0) jobs vals ->
  always_ends (tm_step jobs) tm_ret tm_idle (tm_start jobs h0)
    (fun rs => map snd rs = vals /\ NoDup (map fst rs) /\ Forall (fun r => (length h0 <= fst r)%nat) rs).
Proof.
  intros h0 jobs vals F. apply sounds in F. destruct (all_start h0 jobs vals) as (M0 & I0).
  apply (ghost_ends (tm_step jobs) tm_ret tm_idle _ (all_step h0 jobs vals F) _ _ M0 I0). intros st M I.
  destruct (all_progress h0 jobs vals F st M I) as [(rs & E & H)|(E & c & r & H)]; [left; exists rs; now split|].
  right. split; [exact E|]. exists c, r. exact H.
Qed.
(** no number that was there before changes *)
Theorem C136_kept : forall h0 jobs vals st, Forall2 (sound h0) jobs vals -> arrives jobs h0 st ->
  forall a v, nth_error h0 a = Some v -> nth_error (tm_mem st) a = Some v.
Proof.
  intros h0 jobs vals st F A a v Ea. destruct (arrives_inv _ _ _ _ F A) as (M & own & ms & _ & _ & _ & L & Hh & _).
  assert (La : (a < length h0)%nat) by (apply nth_error_Some; congruence).
  rewrite (nth_error_nth' _ 0) by lia. unfold get in Hh. rewrite Hh by exact La. f_equal. now apply nth_error_nth.
Qed.
(** no two goroutines race, of the same call or of different ones *)
Theorem C136_no_race : forall h0 jobs vals st, Forall2 (sound h0) jobs vals -> arrives jobs h0 st ->
  forall i k i' k' y z, (i, k) <> (i', k') -> tm_next jobs st i k = Some y -> tm_next jobs st i' k' = Some z -> ~ clash y z.
Proof.
  intros h0 jobs vals st F A i k i' k' y z Hne Ey Ez Cl. destruct (arrives_inv _ _ _ _ F A) as (M & own & ms & _ & Lm & Lc & L & Hh & C).
  assert (Ad : at_addr y = at_addr z) by (destruct y, z; cbn in *; [contradiction|congruence..]).
  unfold tm_next in *. destruct (nth_error jobs i) as [j|] eqn:Ej; [|discriminate Ey]. destruct (nth_error jobs i') as [j'|] eqn:Ej'; [|discriminate Ez].
  destruct (nth_error (tm_calls st) i) as [[|h1 s]|] eqn:Ed; try discriminate Ey.
  destruct (nth_error (tm_calls st) i') as [[|h1' s']|] eqn:Ed'; try discriminate Ez.
  destruct (val_at h0 jobs vals (sounds _ _ _ F) _ _ Ej) as (v & Ev). destruct (val_at h0 jobs vals (sounds _ _ _ F) _ _ Ej') as (v' & Ev').
  destruct (some_at _ ms i _ Lm ltac:(eapply nth_some_lt, Ej)) as (m & Em). destruct (some_at _ ms i' _ Lm ltac:(eapply nth_some_lt, Ej')) as (m' & Em').
  pose proof (C _ _ _ _ _ Ej Ev Ed Em) as Ci. pose proof (C _ _ _ _ _ Ej' Ev' Ed' Em') as Ci'.
  destruct (Nat.eq_dec i i') as [->|Hi].
  - rewrite Ej in Ej'. injection Ej' as <-. rewrite Ed in Ed'. injection Ed' as <- <-.
    assert (Hk : k <> k') by congruence. destruct (next_apart h0 _ _ _ _ _ _ _ _ k k' y z Ci Hk Ey Ez Ad) as [Y Z]. rewrite Y, Z in Cl. exact Cl.
  - destruct (next_is h0 _ _ _ _ _ _ _ _ k y Ci Ey) as [[Y Yb]|[Y1 Y2]], (next_is h0 _ _ _ _ _ _ _ _ k' z Ci' Ez) as [[Z Zb]|[Z1 Z2]].
    + rewrite Y, Z in Cl. exact Cl.
    + apply (Yb (at_addr z)); [exact Z1|congruence|congruence].
    + apply (Zb (at_addr y)); [exact Y1|congruence|congruence].
    + congruence.
Qed.

(** ** a case *)
(** two calls of Compute on the same table, the first with two workers, the second with one, begun in between *)
Definition tmcase_mem : memory := [1000003; 3; powmod 3 (2 ^ 16) 1000003; powmod 3 (2 ^ 32) 1000003].
Definition tmcase_jobs (t : Table) : list targs :=
  [TArgs [1; 2; 3]%nat 0%nat t 123456789012 2; TArgs [1; 2; 3]%nat 0%nat t 70000 1].
Definition tmcase_first : list tchoice :=
  [TBegin 0; TDo 0 (ASpin 0); TDo 0 AFeed; TDo 0 AFeed; TDo 0 (ATake 1); TDo 0 (AWork 1); TBegin 1; TDo 1 AFeed; TDo 1 (ATake 0);
   TDo 1 (AWork 0); TDo 0 (AWork 1); TDo 1 (AWork 0); TDo 0 (ATake 0)].
(** the first choice of the list that is possible, as often as there is one *)
Fixpoint finish (jobs : list targs) (cs : list tchoice) (fuel : nat) (st : tmany) : list tchoice :=
  match fuel with
  | O => []
  | S f =>
      let fix pick l :=
        match l with
        | [] => []
        | c :: r => match tm_step jobs st c with Some (Ret st') => c :: finish jobs cs f st' | _ => pick r end
        end in pick cs
  end.
Definition tmcase_choices : list tchoice :=
  [TDo 1 AFeed; TDo 0 (AWork 1); TDo 1 (AWork 0); TDo 0 AFeed; TDo 0 (AGive 1); TDo 1 (AGive 0); TDo 0 AColl; TDo 1 AColl; TDo 0 ARecv; TDo 1 ARecv;
   TDo 0 (AWork 0); TDo 0 (AGive 0); TDo 1 (ATake 0); TDo 0 (ATake 1); TDo 0 (ATake 0); TDo 1 AResult; TDo 0 AResult; TDo 0 (AExit 1); TDo 1 (AExit 0)].
Example C136_case : exists t st st',
  Forall2 (sound tmcase_mem) (tmcase_jobs t) [powmod 3 123456789012 1000003; powmod 3 70000 1000003] /\
  run (tm_step (tmcase_jobs t)) (Ret (tm_start (tmcase_jobs t) tmcase_mem)) tmcase_first = Some (Ret st) /\
  map (tm_next (tmcase_jobs t) st 0) [0; 1; 2]%nat = [None; Some (Wr 5%nat); Some (Rd 1%nat)] /\
  map (tm_next (tmcase_jobs t) st 1) [0; 1]%nat = [None; Some (Rd 1%nat)] /\
  run (tm_step (tmcase_jobs t)) (Ret st) (finish (tmcase_jobs t) tmcase_choices 300 st) = Some (Ret st') /\
  tm_ret st' = Some [(4%nat, powmod 3 123456789012 1000003); (7%nat, powmod 3 70000 1000003)].
Proof.
  do 3 eexists. split.
  { apply Forall2_cons; [|apply Forall2_cons; [|apply Forall2_nil]]; exists 3, 1000003, 255, 6%nat, 2%nat; (split; [|apply powmod_spec; discriminate]);
      (split; [reflexivity|]); (split; [vm_compute; reflexivity|]); (split; [split; reflexivity|]); (split; [cbn; auto|]); (split; [split; vm_compute; reflexivity|]);
      intros a []. }
  do 4 (split; [vm_compute; reflexivity|]). vm_compute. reflexivity.
Qed.

Print Assumptions C136_all_return.
Print Assumptions C136_kept.
Print Assumptions C136_no_race.
