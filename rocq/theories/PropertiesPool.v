(** Theorems for property C50 (the range prover's last commitment value and the shared pool). *)
From Coq Require Import ZArith Bool Lia List Arith String.
From Verif Require Import GoBig ListUpd PokeModel SquaresModel RangeModel PoolModel PoolProofs.
Import ListNotations.
Open Scope Z_scope.

(** Refuted: whatever value V the range prover computes, whatever the pool contains and however many
    other goroutines use it (at least one), some interleaving makes it hash any other value W. *)
Theorem C50_pooled_any_value : forall V W h pool_size n_clients, (0 < n_clients)%nat ->
  exists sched s, pool_run true V (pool_init h pool_size n_clients) sched = Some s /\ prover s = PDone W.
Proof.
  intros V W h m n Hn. destruct n as [|n]; [lia|].
  exists [Prover m; Prover 0; Prover 0; ClientGet 0 0; ClientWrite 0 W; Prover 0].
  unfold pool_init. cbn [pool_run pool_step prover]. unfold pool_get. cbn [free].
  assert (E : @nth_error ptr (seq 0 m) m = None) by (apply nth_error_None; rewrite seq_length; lia).
  rewrite E. cbn [pool_run pool_step prover clients repeat nth_error free next heap].
  unfold pool_get. cbn [free nth_error]. cbn [pool_run pool_step prover clients upd nth_error heap free next].
  eexists. split; [reflexivity|]. cbn [prover]. now rewrite write_eq.
Qed.
Theorem C50_pooled_commitment_refuted : exists V W h pool_size n_clients sched s,
  pool_run true V (pool_init h pool_size n_clients) sched = Some s /\ prover s = PDone W /\ W <> V.
Proof.
  destruct (C50_pooled_any_value 1 2 (fun _ => 0) 0 1 ltac:(lia)) as (sched & s & E & F).
  exists 1, 2, (fun _ => 0), 0%nat, 1%nat, sched, s. repeat split; [exact E|exact F|lia].
Qed.
(** a proof whose commitment was computed from another value is rejected by the verifier that accepts
    the right one *)
Theorem C50_consequence : forall sha v pf pf',
  fst (RP_Verify sha v pf) = Ret true ->
  rp_c pf' = rp_c pf -> rp_commit3 pf' = rp_commit3 pf -> rp_resp pf' = rp_resp pf -> rp_commit pf' <> rp_commit pf ->
  fst (RP_Verify sha v pf') = Ret false.
Proof.
  intros sha v [c c3 cm resp] [c' c3' cm' resp'] H E1 E2 E3 Hne. cbn in E1, E2, E3, Hne. subst c' c3' resp'.
  unfold RP_Verify in *. cbn [rp_c rp_commit3 rp_commit rp_resp] in *.
  destruct (mod_inverse c (ppN (rv_pp v))) as [inv|]; [|discriminate].
  destruct (bind (deref (big_exp (ppG (rv_pp v)) (rv_b v) _)) _) as [c0| |]; try discriminate.
  destruct (bind (go_mod _ _) _) as [ca| |]; try discriminate.
  cbn [fst rv_c0 rv_c3 rv_ca rv_a rv_b rv_commitment set_rest set_c0] in *. destruct c3 as [[c1 c2] c3].
  unfold RP_VerifyResponse in *. destruct (rr_Z4 resp) as [[[z0 z1] z2] z3]. destruct (rr_T4 resp) as [[[t0 t1] t2] t3].
  repeat match type of H with
  | (do _ <- ?X; _) = _ => destruct X as [?| |]; cbn [bind] in *; try discriminate H
  end.
  injection H as H. apply String.eqb_eq in H. f_equal. apply String.eqb_neq. intros H2. apply Hne. now rewrite <- H, <- H2.
Qed.
(** The positivity prover's value is not pooled (zkaop.go:260): it hashes what it computed under every
    interleaving. *)
Theorem C50_unpooled_commitment : forall V h pool_size n_clients sched s,
  pool_run false V (pool_init h pool_size n_clients) sched = Some s ->
  forall v, prover s = PDone v -> v = V.
Proof.
  intros V h m n sched s H v Hv. pose proof (pinv_run _ _ _ _ _ (pinv_init false V h m n) H) as [_ _ _ _ W].
  rewrite Hv in W. auto.
Qed.
(** Partial: the range prover hashes the value it computed in every execution in which no other
    goroutine takes a pointer from the pool between the return of secondPartH and the read. Missing:
    executions in which one does (false there). *)
Theorem C50_pooled_commitment_partial : forall V h pool_size n_clients sched s p s1 quiet s2 s3,
  pool_run true V (pool_init h pool_size n_clients) sched = Some s -> prover s = PReturn p ->
  pool_step true V s (Prover 0) = Some s1 ->
  Forall (fun c => match c with ClientWrite _ _ | ClientPut _ => True | _ => False end) quiet ->
  pool_run true V s1 quiet = Some s2 ->
  pool_step true V s2 (Prover 0) = Some s3 -> prover s3 = PDone V.
Proof.
  intros V h m n sched s p s1 quiet s2 s3 H Hp H1 Hq H2 H3.
  pose proof (pinv_run _ _ _ _ _ (pinv_init true V h m n) H) as [_ _ C _ W]. rewrite Hp in W, C.
  cbn [pool_step] in H1. rewrite Hp in H1. injection H1 as <-.
  assert (Hg : forallb no_get quiet = true).
  { clear -Hq. induction Hq as [|c l Hc Hq IH]; [reflexivity|]. cbn. rewrite IH. destruct c; try contradiction; reflexivity. }
  apply (unheld_value true V p) in H2; [|exact Hg|].
  - cbn [heap prover] in H2. destruct H2 as [E1 E2]. cbn [pool_step] in H3. rewrite E2 in H3. injection H3 as <-. cbn [prover].
    now rewrite E1, W.
  - cbn [clients]. intros k Hk. destruct (C k p Hk) as (_ & _ & C3 & _). cbn [prover_ptr] in C3. congruence.
Qed.
(** two other goroutines: one borrowed a pooled pointer earlier and keeps writing to it *)
Example C50_case :
  exists s s1 s2 s3, pool_run true 42 (pool_init (fun _ => 0) 2 2) [ClientGet 1 0; Prover 0; ClientWrite 1 7; Prover 0] = Some s /\
    prover s = PReturn 1%nat /\ pool_step true 42 s (Prover 0) = Some s1 /\
    pool_run true 42 s1 [ClientWrite 1 9; ClientPut 1] = Some s2 /\ pool_step true 42 s2 (Prover 0) = Some s3 /\ prover s3 = PDone 42 /\
  (exists s', pool_run false 42 (pool_init (fun _ => 0) 2 2)
     [Prover 0; Prover 0; ClientGet 0 1; ClientWrite 0 5; Prover 0; Prover 0] = Some s' /\ prover s' = PDone 42).
Proof.
  eexists. eexists. eexists. eexists. split; [vm_compute; reflexivity|]. split; [vm_compute; reflexivity|].
  split; [vm_compute; reflexivity|]. split; [vm_compute; reflexivity|]. split; [vm_compute; reflexivity|].
  split; [vm_compute; reflexivity|]. eexists. split; vm_compute; reflexivity.
Qed.

Print Assumptions C50_pooled_any_value.
Print Assumptions C50_consequence.
Print Assumptions C50_unpooled_commitment.
Print Assumptions C50_pooled_commitment_partial.
Print Assumptions C50_pooled_commitment_refuted.
