(** Programs made of several goroutines: a state, and for every choice of the scheduler at most one
    successor (the choice may be disabled). [Some Panic] is a crash of the program. *)
From Coq Require Import Bool List Lia Arith Wf_nat.
From Verif Require Import GoBig.
Import ListNotations.

Section Sched.
Context {S C V : Type}.
Variable step : S -> C -> option (outcome S).
Variable ret : S -> option V.      (* the value returned by the main call, once it has returned *)
Variable idle : C -> bool.         (* busy-waiting steps *)

Fixpoint run (s : outcome S) (sched : list C) : option (outcome S) :=
  match sched with
  | [] => Some s
  | c :: r =>
      match s with
      | Ret s => match step s c with Some s' => run s' r | None => None end
      | _ => None
      end
  end.

Definition work (sched : list C) : nat := length (filter (fun c => negb (idle c)) sched).

(** Whatever the scheduler does: no crash; as long as the main call has not returned some goroutine
    can do a step that is not busy waiting (no deadlock); the number of such steps is bounded (no
    endless loop under any scheduler that lets working goroutines work); a value returned by the
    main call satisfies P. *)
Definition always_ends (s0 : S) (P : V -> Prop) : Prop :=
  exists bound, forall sched st, run (Ret s0) sched = Some st ->
    work sched <= bound /\
    exists s, st = Ret s /\
      ((exists v, ret s = Some v /\ P v) \/
       (ret s = None /\ exists c st', idle c = false /\ step s c = Some st')).

(** some schedule reaches a state where the call has not returned and only busy waiting is left *)
Definition can_deadlock (s0 : S) : Prop :=
  exists sched s, run (Ret s0) sched = Some (Ret s) /\ ret s = None /\
    forall c st', step s c = Some st' -> idle c = true /\ st' = Ret s.
Definition can_crash (s0 : S) : Prop := exists sched, run (Ret s0) sched = Some Panic.
Definition can_return (s0 : S) (v : V) : Prop :=
  exists sched s, run (Ret s0) sched = Some (Ret s) /\ ret s = Some v.

Lemma always_ends_inv : forall (Inv : S -> Prop) (m : S -> nat) (P : V -> Prop) s0,
  Inv s0 ->
  (forall s c st, Inv s -> step s c = Some st ->
     exists s', st = Ret s' /\ Inv s' /\ (if idle c then m s' <= m s else m s' < m s)) ->
  (forall s, Inv s -> (exists v, ret s = Some v /\ P v) \/
     (ret s = None /\ exists c st', idle c = false /\ step s c = Some st')) ->
  always_ends s0 P.
Proof.
  intros Inv m P s0 H0 Hstep Hprog.
  assert (R : forall sched s st, Inv s -> run (Ret s) sched = Some st ->
            exists s', st = Ret s' /\ Inv s' /\ work sched + m s' <= m s).
  { induction sched as [|c sched IH]; intros s st HI Hr; cbn [run] in Hr.
    - injection Hr as <-. exists s. repeat split; auto.
    - destruct (step s c) as [st1|] eqn:E; [|discriminate].
      destruct (Hstep _ _ _ HI E) as (s1 & -> & HI1 & Hm).
      destruct (IH _ _ HI1 Hr) as (s' & -> & HI' & Hw). exists s'. split; [reflexivity|]. split; [assumption|].
      unfold work in *. cbn [filter]. destruct (idle c); cbn [negb]; [lia|]. cbn [length]. lia. }
  exists (m s0). intros sched st Hr. destruct (R _ _ _ H0 Hr) as (s & -> & HI & Hw).
  split; [lia|]. exists s. split; [reflexivity|]. now apply Hprog.
Qed.

Lemma always_ends_no_crash : forall s0 P, always_ends s0 P -> ~ can_crash s0.
Proof. intros s0 P [b H] [sched Hr]. destruct (H _ _ Hr) as [_ (s & E & _)]. discriminate. Qed.
Lemma always_ends_no_deadlock : forall s0 P, always_ends s0 P -> ~ can_deadlock s0.
Proof.
  intros s0 P [b H] (sched & s & Hr & Hn & Hd). destruct (H _ _ Hr) as [_ (s' & E & [(v & Hv & _)|(_ & c & st' & Hi & Hs)])].
  - injection E as <-. congruence.
  - injection E as <-. apply Hd in Hs. destruct Hs. congruence.
Qed.
(** and it does return on some schedule *)
Lemma always_ends_returns : forall s0 P, always_ends s0 P -> exists v, can_return s0 v /\ P v.
Proof.
  intros s0 P [b H].
  assert (K : forall k sched st, b - work sched = k -> run (Ret s0) sched = Some st ->
            exists sched' s v, run (Ret s0) sched' = Some (Ret s) /\ ret s = Some v /\ P v).
  { induction k as [k IH] using lt_wf_ind. intros sched st Hk Hr.
    destruct (H _ _ Hr) as [Hb (s & -> & [(v & Hv & HP)|(_ & c & st' & Hi & Hs)])]; [eauto 8|].
    assert (E : forall sched' t, run (Ret t) sched' = Some (Ret s) -> run (Ret t) (sched' ++ [c]) = Some st').
    { induction sched' as [|c' sched' IHs]; intros t Ht; cbn [run app] in *.
      - injection Ht as ->. now rewrite Hs.
      - destruct (step t c') as [[t'| |]|]; try discriminate.
        + now apply IHs.
        + destruct sched'; discriminate.
        + destruct sched'; discriminate. }
    specialize (E _ _ Hr).
    assert (W : work (sched ++ [c]) = Datatypes.S (work sched)).
    { unfold work. rewrite filter_app, app_length. cbn [filter]. rewrite Hi. cbn. lia. }
    destruct (H _ _ E) as [Hb' _].
    eapply (IH (b - work (sched ++ [c]))); [lia|reflexivity|exact E]. }
  destruct (K _ [] (Ret s0) eq_refl eq_refl) as (sched & s & v & Hr & Hv & HP). exists v. split; [exists sched, s; auto|assumption].
Qed.
Lemma always_ends_mono : forall s0 (P Q : V -> Prop), (forall v, P v -> Q v) -> always_ends s0 P -> always_ends s0 Q.
Proof.
  intros s0 P Q HPQ [b H]. exists b. intros sched st Hr. destruct (H _ _ Hr) as [Hb (s & E & [(v & Hv & HP)|Hp])]; split; eauto 7.
Qed.
End Sched.
