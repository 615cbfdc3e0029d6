(** Proofs about the pool. *)
From Coq Require Import ZArith Bool Lia List Arith Permutation.
From Verif Require Import GoBig ListUpd PoolModel.
Import ListNotations.
Local Open Scope nat_scope.

Definition prover_ptr (pooled : bool) (s : pstate) : option ptr :=
  match s with
  | PCompute p | PReturn p => Some p
  | PRead p => if pooled then None else Some p
  | _ => None
  end.

Record pinv (pooled : bool) (V : Z) (s : pool_state) : Prop := {
  pi_free : NoDup (free s);
  pi_lt : forall p, In p (free s) -> p < next s;
  pi_cl : forall k p, nth_error (clients s) k = Some (Holds p) ->
    ~ In p (free s) /\ p < next s /\ prover_ptr pooled (prover s) <> Some p /\
    (forall k', nth_error (clients s) k' = Some (Holds p) -> k' = k);
  pi_pr : forall p, prover_ptr pooled (prover s) = Some p -> ~ In p (free s) /\ p < next s;
  pi_val : match prover s with
           | PReturn p => heap s p = V
           | PRead p => pooled = false -> heap s p = V
           | PDone v => pooled = false -> v = V
           | _ => True
           end }.

Lemma remove_nth_spec : forall A (l : list A) i x, nth_error l i = Some x -> Permutation l (x :: remove_nth i l).
Proof.
  induction l as [|y l IH]; intros [|i] x H; cbn in *; try discriminate.
  - injection H as ->. apply Permutation_refl.
  - apply IH in H. rewrite H at 1. apply perm_swap.
Qed.
Lemma pool_get_spec : forall s which p f n, pool_get s which = (p, f, n) ->
  NoDup (free s) -> (forall q, In q (free s) -> q < next s) ->
  NoDup f /\ ~ In p f /\ (forall q, In q f -> In q (free s)) /\ p < n /\ next s <= n /\ (In p (free s) \/ p = next s).
Proof.
  intros s which p f n H ND LT. unfold pool_get in H. destruct (nth_error (free s) which) as [q|] eqn:E.
  - injection H as -> <- <-. apply remove_nth_spec in E.
    assert (N2 : NoDup (p :: remove_nth which (free s))) by (eapply Permutation_NoDup; eassumption).
    inversion N2; subst. split; [assumption|]. split; [assumption|]. split.
    + intros q Hq. eapply Permutation_in; [symmetry; exact E|now right].
    + assert (In p (free s)) by (eapply Permutation_in; [symmetry; exact E|now left]). auto 6.
  - injection H as <- <- <-. split; [assumption|]. split; [intros Hin; apply LT in Hin; lia|]. split; [auto|].
    split; [lia|]. split; [lia|]. now right.
Qed.
Lemma write_eq : forall h p v, write h p v p = v.
Proof. intros. unfold write. now rewrite Nat.eqb_refl. Qed.
Lemma write_neq : forall h p v q, q <> p -> write h p v q = h q.
Proof. intros. unfold write. now rewrite (proj2 (Nat.eqb_neq q p)). Qed.
Lemma nth_upd_cases : forall A (l : list A) k v i r, nth_error (upd l k v) i = Some r ->
  (i = k /\ r = v) \/ (i <> k /\ nth_error l i = Some r).
Proof.
  intros A l k v i r H. destruct (Nat.eq_dec i k) as [->|Hn].
  - left. assert (Hk : k < length l). { apply nth_some_lt in H. now rewrite length_upd in H. }
    rewrite nth_upd_eq in H by assumption. injection H as <-. auto.
  - right. rewrite nth_upd_neq in H by auto. auto.
Qed.

Lemma pinv_step : forall pooled V s c s', pinv pooled V s -> pool_step pooled V s c = Some s' -> pinv pooled V s'.
Proof.
  intros pooled V s c s' [F L C P W] H. destruct c as [w|k w|k v|k]; cbn [pool_step] in H.
  - destruct (prover s) as [|p|p|p|v] eqn:Ep; try discriminate; cbn [prover_ptr] in *.
    + destruct pooled.
      * destruct (pool_get s w) as [[p f] n] eqn:Eg. injection H as <-.
        destruct (pool_get_spec _ _ _ _ _ Eg F L) as (G1 & G2 & G3 & G4 & G5 & G6).
        constructor; cbn [heap free next prover clients prover_ptr]; auto.
        -- intros q Hq. apply G3, L in Hq. lia.
        -- intros k q Hk. destruct (C k q Hk) as (C1 & C2 & C3 & C4). split; [auto|]. split; [lia|]. split; [|assumption].
           intros E. injection E as ->. destruct G6 as [G6| ->]; [auto|lia].
        -- intros q E. injection E as ->. auto.
      * injection H as <-. constructor; cbn [heap free next prover clients prover_ptr]; auto.
        -- intros q Hq. apply L in Hq. lia.
        -- intros k q Hk. destruct (C k q Hk) as (C1 & C2 & C3 & C4). split; [auto|]. split; [lia|]. split; [|assumption].
           intros E. injection E as E. lia.
        -- intros q E. injection E as <-. split; [intros Hin; apply L in Hin; lia|lia].
    + injection H as <-. constructor; cbn [heap free next prover clients prover_ptr]; auto. apply write_eq.
    + injection H as <-. destruct (P p eq_refl) as [P1 P2]. destruct pooled; constructor; cbn [heap free next prover clients prover_ptr]; auto.
      * constructor; assumption.
      * intros q [<-|Hq]; auto.
      * intros k q Hk. destruct (C k q Hk) as (C1 & C2 & C3 & C4). split.
        -- intros [E|Hin]; [subst; congruence|auto].
        -- split; [assumption|]. split; [discriminate|assumption].
      * intros q E. discriminate.
    + injection H as <-. constructor; cbn [heap free next prover clients prover_ptr]; auto.
      * intros k q Hk. destruct (C k q Hk) as (C1 & C2 & C3 & C4). split; [auto|]. split; [assumption|]. split; [discriminate|assumption].
      * intros q E. discriminate.
  - destruct (nth_error (clients s) k) as [[|q]|] eqn:Ek; try discriminate.
    destruct (pool_get s w) as [[p f] n] eqn:Eg. injection H as <-.
    destruct (pool_get_spec _ _ _ _ _ Eg F L) as (G1 & G2 & G3 & G4 & G5 & G6).
    assert (Hnp : forall j q, nth_error (clients s) j = Some (Holds q) -> q <> p).
    { intros j q Hj ->. destruct (C j p Hj) as (C1 & C2 & _). destruct G6 as [G6| ->]; [auto|lia]. }
    constructor; cbn [heap free next prover clients]; auto.
    + intros q Hq. apply G3, L in Hq. lia.
    + intros j q Hj. apply nth_upd_cases in Hj. destruct Hj as [[-> E]|[Hne Hj]].
      * injection E as ->. split; [assumption|]. split; [assumption|]. split.
        -- intros E. destruct (P p E) as [P1 P2]. destruct G6 as [G6| ->]; [auto|lia].
        -- intros j' Hj'. apply nth_upd_cases in Hj'. destruct Hj' as [[-> _]|[_ Hj']]; [reflexivity|].
           exfalso. eapply Hnp; eauto.
      * destruct (C j q Hj) as (C1 & C2 & C3 & C4). split; [auto|]. split; [lia|]. split; [assumption|].
        intros j' Hj'. apply nth_upd_cases in Hj'. destruct Hj' as [[-> E]|[_ Hj']]; [|auto].
        injection E as ->. exfalso. eapply Hnp; eauto.
    + intros q E. destruct (P q E) as [P1 P2]. split; [auto|lia].
  - destruct (nth_error (clients s) k) as [[|q]|] eqn:Ek; try discriminate. injection H as <-.
    destruct (C k q Ek) as (C1 & C2 & C3 & C4).
    constructor; cbn [heap free next prover clients]; auto.
    destruct (prover s) as [|p|p|p|v0]; cbn [prover_ptr] in *; auto.
    + rewrite write_neq; [assumption|congruence].
    + intros ->. rewrite write_neq; [auto|]. intros E. subst. auto.
  - destruct (nth_error (clients s) k) as [[|q]|] eqn:Ek; try discriminate. injection H as <-.
    destruct (C k q Ek) as (C1 & C2 & C3 & C4).
    constructor; cbn [heap free next prover clients]; auto.
    + constructor; assumption.
    + intros p [<-|Hp]; auto.
    + intros j p Hj. apply nth_upd_cases in Hj. destruct Hj as [[_ E]|[Hne Hj]]; [discriminate|].
      destruct (C j p Hj) as (D1 & D2 & D3 & D4). split.
      * intros [E|Hin]; [|auto]. subst q. apply D4 in Ek. congruence.
      * split; [assumption|]. split; [assumption|]. intros j' Hj'. apply nth_upd_cases in Hj'.
        destruct Hj' as [[_ E]|[_ Hj']]; [discriminate|auto].
    + intros p E. destruct (P p E) as [P1 P2]. split; [|assumption]. intros [<-|Hin]; [congruence|auto].
Qed.
Lemma pinv_run : forall pooled V sched s s', pinv pooled V s -> pool_run pooled V s sched = Some s' -> pinv pooled V s'.
Proof.
  intros pooled V. induction sched as [|c sched IH]; intros s s' HI H; cbn [pool_run] in H; [now injection H as <-|].
  destruct (pool_step pooled V s c) as [s1|] eqn:E; [|discriminate]. eapply IH; [|eassumption]. eapply pinv_step; eassumption.
Qed.
Lemma pinv_init : forall pooled V h m n, pinv pooled V (pool_init h m n).
Proof.
  intros. constructor; cbn; auto.
  - apply seq_NoDup.
  - intros p Hp. apply in_seq in Hp. lia.
  - intros k p Hk. exfalso. apply nth_error_In, repeat_spec in Hk. discriminate.
  - discriminate.
Qed.

(** no Get of another goroutine *)
Definition no_get (c : pool_choice) : bool := match c with ClientWrite _ _ | ClientPut _ => true | _ => false end.
(** the value survives as long as nobody holds its pointer *)
Lemma unheld_value : forall pooled V p sched s s',
  forallb no_get sched = true ->
  (forall k, nth_error (clients s) k <> Some (Holds p)) ->
  pool_run pooled V s sched = Some s' -> heap s' p = heap s p /\ prover s' = prover s.
Proof.
  intros pooled V p. induction sched as [|c sched IH]; intros s s' Hn Hc H; cbn [pool_run forallb] in *.
  - injection H as <-. auto.
  - apply andb_prop in Hn. destruct Hn as [Hn1 Hn]. destruct (pool_step pooled V s c) as [s1|] eqn:E; [|discriminate].
    destruct c as [w|k w|k v|k]; try discriminate; cbn [pool_step] in E;
    destruct (nth_error (clients s) k) as [[|q]|] eqn:Ek; try discriminate; injection E as <-.
    + apply IH in H; [|assumption|exact Hc]. destruct H as [-> ->]. cbn [heap prover]. split; [|reflexivity]. apply write_neq.
      intros <-. now apply (Hc k).
    + apply IH in H; [exact H|assumption|]. cbn [clients]. intros j Hj.
      apply nth_upd_cases in Hj. destruct Hj as [[_ E]|[_ Hj]]; [discriminate|]. now apply (Hc j).
Qed.
