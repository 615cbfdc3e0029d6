(** Exactly on which proofs the positivity and range verifiers answer (C48). *)
From Coq Require Import ZArith Bool Lia String List.
From Verif Require Import GoBig GoBigFacts Spec Sched FSModel PokeModel PokeProofs
  RangeModel RangeProofs PropertiesHash PropertiesPoke PropertiesRange StrFacts.
Import ListNotations.
Open Scope Z_scope.

(** ** C48: on which proofs the verifiers answer *)
(** the computation returns if P holds and panics otherwise *)
Definition answers {A} (o : outcome A) (P : Prop) : Prop := (P /\ exists v, o = Ret v) \/ (~ P /\ o = Panic).
Lemma answers_iff : forall A (o : outcome A) P Q, answers o P -> (P <-> Q) -> answers o Q.
Proof. intros A o P Q [[H E]|[H E]] I; [left|right]; tauto. Qed.
Lemma answers_ret : forall A (v : A), answers (Ret v) True.
Proof. intros. left. eauto. Qed.
Lemma answers_bind : forall A B (o : outcome A) (f : A -> outcome B) P Q, answers o P -> (forall v, answers (f v) Q) -> answers (bind o f) (P /\ Q).
Proof.
  intros A B o f P Q [[H [v ->]]|[H ->]] F; cbn [bind].
  - destruct (F v) as [[K [w Ew]]|[K E]]; [left|right]; eauto. split; [tauto|exact E].
  - right. split; [tauto|reflexivity].
Qed.
(** Exp with modulus N > 1 gives nil exactly for a negative power of a number without inverse *)
Definition invertible_if_negative (N x k : Z) : Prop := k < 0 -> Z.gcd x N = 1.
Lemma answers_exp : forall N x k, 1 < N -> answers (deref (big_exp x k N)) (invertible_if_negative N x k).
Proof.
  intros N x k HN. unfold invertible_if_negative. destruct (Z.eq_dec (Z.gcd x N) 1) as [G|G].
  - left. split; [auto|]. destruct (big_exp_some N x k ltac:(lia) G) as [v ->]. cbn. eauto.
  - unfold big_exp. rewrite (proj2 (Z.eqb_neq N 0)) by lia. destruct (Z.leb_spec 0 k).
    + left. split; [lia|]. cbn. eauto.
    + right. split; [tauto|]. rewrite mod_inverse_none; [reflexivity|lia|exact G].
Qed.
Lemma answers_mod : forall N x, 1 < N -> answers (go_mod x N) True.
Proof. intros N x HN. rewrite go_mod_ret by lia. apply answers_ret. Qed.
Lemma answers_mul_exp : forall N d c k, 1 < N -> answers (mul_exp N d c k) (invertible_if_negative N c k).
Proof.
  intros N d c k HN. unfold mul_exp. eapply answers_iff; [apply answers_bind; [now apply answers_exp|intros; now apply answers_mod]|]. tauto.
Qed.
Lemma answers_fold3 : forall N d c0 c1 c2 k0 k1 k2, 1 < N -> answers (fold3 (mul_exp N) d (c0, c1, c2) (k0, k1, k2))
  (invertible_if_negative N c0 k0 /\ invertible_if_negative N c1 k1 /\ invertible_if_negative N c2 k2).
Proof.
  intros. unfold fold3. apply answers_bind; [now apply answers_mul_exp|intros]. apply answers_bind; [now apply answers_mul_exp|intros]. now apply answers_mul_exp.
Qed.
Lemma answers_first : forall N g h c z t k, 1 < N -> coprime g N -> coprime h N ->
  answers (do u <- deref (big_exp g z N); do v <- deref (big_exp h t N); do w <- deref (big_exp c k N); go_mod (u * v * w) N) (invertible_if_negative N c k).
Proof.
  intros N g h c z t k HN Hg Hh. eapply answers_iff.
  - apply answers_bind; [now apply answers_exp|intros]. apply answers_bind; [now apply answers_exp|intros]. apply answers_bind; [now apply answers_exp|intros]. now apply answers_mod.
  - unfold invertible_if_negative, coprime in *. tauto.
Qed.

(** The positivity verifier panics exactly on: a component without inverse while the challenge is not zero (the verifier's own
    commitment included), or one without inverse under a negative response. *)
Theorem C48_AoP_exact : forall sha pp c c0 c1 c2 commitment z0 z1 z2 T3 T junk, pp_ok pp ->
  let N := ppN pp in let unit u := Z.gcd u N = 1 in
  let pf := {| ap_commit3 := (c0, c1, c2); ap_commitment := commitment; ap_response := {| ar_Z3 := (z0, z1, z2); ar_T3 := T3; ar_T := T |} |} in
  let fine := (0 < aop_challenge sha pp (c0, c1, c2) -> unit c /\ unit c0 /\ unit c1 /\ unit c2) /\
              (z0 < 0 -> unit c0) /\ (z1 < 0 -> unit c1) /\ (z2 < 0 -> unit c2) in
  (fine -> exists v, fst (AoP_Verify sha (NewZKAoPVerifier pp c) pf junk) = Ret v) /\
  (~ fine -> fst (AoP_Verify sha (NewZKAoPVerifier pp c) pf junk) = Panic).
Proof.
  intros sha pp c c0 c1 c2 commitment z0 z1 z2 [[t0 t1] t2] T junk (HN & HG & HGc & HH & HHc) N unit pf fine.
  assert (Ge : 0 <= aop_challenge sha pp (c0, c1, c2)) by (unfold aop_challenge; apply set_bytes_bound).
  assert (A : answers (fst (AoP_Verify sha (NewZKAoPVerifier pp c) pf junk)) fine); [|destruct A as [[K E]|[K E]]; split; intros; tauto].
  cbn [AoP_Verify fst av_c3 av_pp av_c av_commitment NewZKAoPVerifier deref bind pf ap_commit3 ap_commitment ap_response].
  unfold AoP_VerifyResponse. cbn [ar_Z3 ar_T3 ar_T]. fold N in HN, HGc, HHc |- *. set (e := aop_challenge sha pp (c0, c1, c2)) in *. clearbody e.
  eapply answers_iff.
  - apply answers_bind; [now apply answers_first|intros p0]. apply answers_bind; [now apply answers_first|intros p1]. apply answers_bind; [now apply answers_first|intros p2].
    apply answers_bind; [now apply answers_fold3|intros l0]. apply answers_bind; [now apply answers_exp|intros cp]. apply answers_bind; [now apply answers_mod|intros hp].
    apply answers_bind; [now apply answers_mod|intros l1]. apply answers_bind; [now apply answers_mul_exp|intros l2]. apply answers_ret.
  - unfold fine, unit, invertible_if_negative, coprime in *. rewrite Z.shiftl_mul_pow2 by lia. change (2 ^ 2) with 4.
    destruct (Z.eq_dec e 0) as [E0|E0]; split; intros H; repeat match goal with |- _ /\ _ => split end; intros; try lia; try tauto; try (apply H; lia).
Qed.

(** The range verifier panics exactly on: c without inverse; another component without inverse while the challenge is not zero,
    or under a positive response. *)
Theorem C48_RP_exact : forall sha pp a b c c1 c2 c3 commit z0 z1 z2 z3 T4 tau, pp_ok pp ->
  let N := ppN pp in let unit u := Z.gcd u N = 1 in
  let pf := {| rp_c := c; rp_commit3 := (c1, c2, c3); rp_commit := commit; rp_resp := {| rr_Z4 := (z0, z1, z2, z3); rr_T4 := T4; rr_TAU := tau |} |} in
  let fine := unit c /\ (0 < rp_challenge sha pp a b (c1, c2, c3) -> unit c1 /\ unit c2 /\ unit c3) /\
              (0 < z1 -> unit c1) /\ (0 < z2 -> unit c2) /\ (0 < z3 -> unit c3) in
  (fine -> exists v, fst (RP_Verify sha (NewRPVerifier pp a b) pf) = Ret v) /\
  (~ fine -> fst (RP_Verify sha (NewRPVerifier pp a b) pf) = Panic).
Proof.
  intros sha pp a b c c1 c2 c3 commit z0 z1 z2 z3 [[[t0 t1] t2] t3] tau (HN & HG & HGc & HH & HHc) N unit pf fine.
  assert (Ge : 0 <= rp_challenge sha pp a b (c1, c2, c3)) by (unfold rp_challenge; apply set_bytes_bound).
  assert (A : answers (fst (RP_Verify sha (NewRPVerifier pp a b) pf)) fine); [|destruct A as [[K E]|[K E]]; split; intros; tauto].
  destruct (Z.eq_dec (Z.gcd c N) 1) as [G|G].
  2:{ right. split; [unfold fine, unit; tauto|]. apply C48_RP_crash; [cbn; lia|exact G]. }
  destruct (RP_Verify_unfold sha pp a b pf HN HGc G) as (k0 & ca & Hk0 & Hca & U).
  rewrite (U commit pf (NewRPVerifier pp a b)) by reflexivity. cbn [pf rp_commit3 rp_resp].
  unfold RP_VerifyResponse. cbn [rr_Z4 rr_T4 rr_TAU]. fold N in HN, HGc, HHc, Hk0, Hca |- *. set (e := rp_challenge sha pp a b (c1, c2, c3)) in *. clearbody e.
  eapply answers_iff.
  - apply answers_bind; [now apply answers_first|intros p0]. apply answers_bind; [now apply answers_first|intros p1]. apply answers_bind; [now apply answers_first|intros p2].
    apply answers_bind; [now apply answers_first|intros p3]. apply answers_bind; [now apply answers_exp|intros l0]. apply answers_bind; [now apply answers_mul_exp|intros l1].
    apply answers_bind; [now apply answers_mul_exp|intros l2]. apply answers_bind; [now apply answers_fold3|intros l3]. apply answers_ret.
  - unfold fine, unit, invertible_if_negative, coprime in *.
    destruct (Z.eq_dec e 0) as [E0|E0]; split; intros H; repeat match goal with |- _ /\ _ => split end; intros; try lia; try tauto; try (apply H; lia).
Qed.
(** proofs of the three kinds: answered, and the two reasons to panic *)
Example C48_exact_case : let pp := {| ppN := 77; ppG := 4; ppH := 9 |} in
  let resp z := {| ar_Z3 := (1, z, 3); ar_T3 := (4, 5, 6); ar_T := 7 |} in
  let verdict sha c1 z := fst (AoP_Verify sha (NewZKAoPVerifier pp 4) {| ap_commit3 := (1, c1, 1); ap_commitment := ""%string; ap_response := resp z |} 0) in
  pp_ok pp /\ verdict toy_sha 2 (-2) = Ret false /\ verdict toy_sha 7 2 = Panic /\
  verdict (fun _ => ""%string) 7 2 = Ret true /\ verdict (fun _ => ""%string) 7 (-2) = Panic.
Proof. cbv zeta. split; [unfold pp_ok; cbn; repeat split; (lia || reflexivity)|]. repeat split; vm_compute; reflexivity. Qed.

Print Assumptions C48_AoP_exact.
Print Assumptions C48_RP_exact.
