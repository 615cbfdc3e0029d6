(** Theorems for properties C43-C49 (argument of positivity and range proof).

    The hash function is arbitrary. ThreeSquares is any function whose results are possible results
    of the search machine of SquaresModel ([squares_oracle]). *)
From Coq Require Import ZArith Bool Lia String List.
From Verif Require Import GoBig GoBigFacts Spec Sched FSModel PokeModel PokeProofs SquaresModel SquaresProofs
  RangeModel RangeProofs PropertiesHash PropertiesPoke PropertiesSquares.
Import ListNotations.
Open Scope Z_scope.

Definition squares_oracle (GCD : Z * Z -> Z * Z -> Z * Z) (is_prime : Z -> bool) (TS : Z -> outcome Int3) : Prop :=
  forall n v, TS n = Ret v ->
    exists cpus s0, ts_init n cpus = Ret s0 /\ can_return (ts_step GCD is_prime) ts_ret s0 v.
(** c is a commitment G^x H^r mod N *)
Definition commits_to (N G H x r c : Z) : Prop :=
  exists u v, is_power N G x u /\ is_power N H r v /\ c = (u * v) mod N.

Lemma gh_commits : forall pp x r, pp_ok pp -> commits_to (ppN pp) (ppG pp) (ppH pp) x r (gh (ppN pp) (ppG pp) (ppH pp) x r).
Proof.
  intros pp x r (HN & HG & HGc & HH & HHc). exists (up (ppN pp) (ppG pp) x), (up (ppN pp) (ppH pp) r).
  split; [|split; [|reflexivity]]; apply is_power_iff; try lia; try (right; auto; fail); apply exp_recv_up.
Qed.
Lemma oracle_sum : forall GCD is_prime TS, gcd_spec GCD -> squares_oracle GCD is_prime TS ->
  forall k a b c, TS (4 * k + 1) = Ret (a, b, c) -> a * a + b * b + c * c = 4 * k + 1.
Proof.
  intros GCD is_prime TS HG HT k a b c E. destruct (HT _ _ E) as (R & s0 & H0 & Hr).
  assert (H4 : (4 * k + 1) mod 4 = 1). { rewrite Z.add_comm, Z.mul_comm, Z_mod_plus_full. reflexivity. }
  destruct (C41_ThreeSquares_correct GCD is_prime HG _ R s0 H4 H0 _ Hr) as [(S & _) _]. rewrite !Z.pow_2_r in S. exact S.
Qed.
Lemma oracle_nonneg : forall GCD is_prime TS, squares_oracle GCD is_prime TS ->
  forall n v, TS n = Ret v -> 0 <= n.
Proof.
  intros GCD is_prime TS HT n v E. destruct (HT _ _ E) as (R & s0 & H0 & _). unfold ts_init in H0.
  destruct (Z.ltb_spec n 0); [discriminate|assumption].
Qed.
(** an oracle for the examples: it only finds 5 = 2^2 + 1^2 + 0^2, as the machine with 8 CPUs can *)
Definition toy_squares (n : Z) : outcome Int3 := if n =? 5 then Ret (2, 1, 0) else OutOfFuel.
Lemma toy_squares_ok : squares_oracle gauss_gcd (fun _ => true) toy_squares.
Proof.
  intros n v H. unfold toy_squares in H. destruct (Z.eqb_spec n 5) as [->|]; [|discriminate]. injection H as <-.
  exists 8%nat, (ts_start 5 8). split; [reflexivity|]. apply C42_lost_result_8.
Qed.

(** ** C43 *)
Theorem C43_AoP_complete : forall sha GCD is_prime TS, gcd_spec GCD -> squares_oracle GCD is_prime TS ->
  forall pp r x k v, pp_ok pp -> TS (4 * x + 1) = Ret v ->
  exists c pf, AoP_Prove sha TS pp r x k = Ret (c, pf) /\ commits_to (ppN pp) (ppG pp) (ppH pp) x r c /\
    forall junk, fst (AoP_Verify sha (NewZKAoPVerifier pp c) pf junk) = Ret true.
Proof.
  intros sha GCD is_prime TS HG HT pp r x k v Hpp Ev.
  destruct (AoP_Prove_returns sha TS pp r x k v Hpp Ev) as [pf E]. exists (gh (ppN pp) (ppG pp) (ppH pp) x r), pf.
  split; [exact E|]. split; [now apply gh_commits|].
  apply (AoP_complete sha TS pp r x k); [assumption| |exact E]. intros a b c. exact (oracle_sum GCD is_prime TS HG HT x a b c).
Qed.
Example C43_case :
  let pp := {| ppN := 77; ppG := 4; ppH := 9 |} in
  let k := {| ac_r3 := (1, 2, 3); ac_m3 := (4, 5, 6); ac_s3 := (7, 8, 9); ac_s := 10 |} in
  gcd_spec gauss_gcd /\ squares_oracle gauss_gcd (fun _ => true) toy_squares /\ pp_ok pp /\ toy_squares (4 * 1 + 1) = Ret (2, 1, 0) /\
  (exists c pf, AoP_Prove toy_sha toy_squares pp 5 1 k = Ret (c, pf) /\
     fst (AoP_Verify toy_sha (NewZKAoPVerifier pp c) pf 0) = Ret true /\
     fst (AoP_Verify toy_sha (NewZKAoPVerifier pp (c + 1)) pf 0) = Ret false).
Proof.
  cbv zeta. split; [exact gauss_gcd_spec|]. split; [exact toy_squares_ok|].
  split; [unfold pp_ok; cbn; repeat split; (lia || reflexivity)|]. split; [reflexivity|].
  eexists _, _. split; [vm_compute; reflexivity|]. split; vm_compute; reflexivity.
Qed.

(** ** C45: the first coin of m4 is one drawn by freshRandCoin, hence not negative *)
Theorem C45_RP_complete : forall sha GCD is_prime TS, gcd_spec GCD -> squares_oracle GCD is_prime TS ->
  forall pp r a b x k v, pp_ok pp -> a <= x <= b -> (let '(m0, _, _, _) := rc_m4 k in 0 <= m0) ->
  TS (4 * ((b - x) * (x - a)) + 1) = Ret v ->
  exists pf, RP_Prove sha TS pp r a b x k = Ret pf /\ commits_to (ppN pp) (ppG pp) (ppH pp) x r (rp_c pf) /\
    fst (RP_Verify sha (NewRPVerifier pp a b) pf) = Ret true.
Proof.
  intros sha GCD is_prime TS HG HT pp r a b x k v Hpp Hx Hm Ev.
  destruct (RP_Prove_returns sha TS pp r a b x k v Hpp Ev) as (pf & E & Ec). exists pf.
  split; [exact E|]. split; [rewrite Ec; now apply gh_commits|].
  apply (RP_complete sha TS pp r a b x k); [assumption|assumption| |exact E].
  intros t u w. exact (oracle_sum GCD is_prime TS HG HT _ t u w).
Qed.
Example C45_case :
  let pp := {| ppN := 77; ppG := 4; ppH := 9 |} in
  let k := {| rc_r3 := (1, 2, 3); rc_m4 := (4, 5, 6, 7); rc_s4 := (7, 8, 9, 10); rc_sigma := 11 |} in
  pp_ok pp /\ 3 <= 4 <= 5 /\ toy_squares (4 * ((5 - 4) * (4 - 3)) + 1) = Ret (2, 1, 0) /\
  (exists pf, RP_Prove toy_sha toy_squares pp 5 3 5 4 k = Ret pf /\
     fst (RP_Verify toy_sha (NewRPVerifier pp 3 5) pf) = Ret true /\
     fst (RP_Verify toy_sha (NewRPVerifier pp 3 6) pf) = Ret false).
Proof.
  cbv zeta. split; [unfold pp_ok; cbn; repeat split; (lia || reflexivity)|]. split; [lia|]. split; [reflexivity|].
  eexists. split; [vm_compute; reflexivity|]. split; vm_compute; reflexivity.
Qed.

(** ** C44, C46. Refuted: the challenge does not depend on the first message, so that for every hash
    function, parameters, invertible c and response there is an accepted proof. *)
Theorem C44_AoP_forgery : forall sha pp c c3 resp, pp_ok pp -> Z.gcd c (ppN pp) = 1 -> units3 (ppN pp) c3 ->
  exists pf, ap_commit3 pf = c3 /\ ap_response pf = resp /\
    forall junk, fst (AoP_Verify sha (NewZKAoPVerifier pp c) pf junk) = Ret true.
Proof.
  intros sha pp c c3 resp (HN & HG & HGc & HH & HHc) Hc H3.
  destruct (AoP_VerifyResponse_answers sha pp c c3 ""%string resp 0 ltac:(lia) HGc HHc Hc H3) as [b E].
  destruct (AoP_VerifyResponse_forge sha pp c c3 resp 0 b ""%string E) as [cm Ec].
  exists {| ap_commit3 := c3; ap_commitment := cm; ap_response := resp |}. split; [reflexivity|]. split; [reflexivity|].
  intros junk. cbn [AoP_Verify fst av_c3 av_pp av_c av_commitment NewZKAoPVerifier ap_commit3 ap_commitment ap_response deref bind].
  rewrite <- Ec. unfold AoP_VerifyResponse.
  assert (J : exp_recv junk (ppH pp) (ar_T resp) (ppN pp) = exp_recv 0 (ppH pp) (ar_T resp) (ppN pp)).
  { unfold exp_recv. destruct (big_exp_some (ppN pp) (ppH pp) (ar_T resp) ltac:(lia) HHc) as [w ->]. reflexivity. }
  rewrite J. reflexivity.
Qed.
Lemma pow4_mod15 : forall k, 0 <= k -> 4 ^ k mod 15 = 1 \/ 4 ^ k mod 15 = 4.
Proof.
  apply natlike_ind; [left; reflexivity|]. intros k Hk IH. rewrite Z.pow_succ_r, Z.mul_mod by lia.
  destruct IH as [->| ->]; cbn; auto.
Qed.
Lemma powers_of_4 : forall k v, is_power 15 4 k v -> v = 1 \/ v = 4.
Proof.
  intros k v (Hv & H1 & H2). destruct (Z_le_gt_dec 0 k) as [Hk|Hk].
  - rewrite (H1 Hk). now apply pow4_mod15.
  - specialize (H2 ltac:(lia)). rewrite <- mul_mod_idem_r in H2.
    destruct (pow4_mod15 (- k) ltac:(lia)) as [E|E]; rewrite E in H2; change (1 mod 15) with 1 in H2.
    + rewrite Z.mul_1_r, Z.mod_small in H2; auto.
    + right. pose proof (Z.div_mod (v * 4) 15 ltac:(lia)). lia.
Qed.
(** 2 is no commitment to any integer, positive or negative *)
Lemma two_no_commitment : forall x r, ~ commits_to 15 4 4 x r 2.
Proof.
  intros x r (u & v & Hu & Hv & E). apply powers_of_4 in Hu. apply powers_of_4 in Hv.
  destruct Hu as [->| ->]; destruct Hv as [->| ->]; cbn in E; discriminate.
Qed.
Theorem C44_AoP_sound_refuted : exists pp c, pp_ok pp /\ Z.gcd c (ppN pp) = 1 /\
  (forall x r, ~ commits_to (ppN pp) (ppG pp) (ppH pp) x r c) /\
  forall sha, exists pf, forall junk, fst (AoP_Verify sha (NewZKAoPVerifier pp c) pf junk) = Ret true.
Proof.
  set (pp := {| ppN := 15; ppG := 4; ppH := 4 |}). exists pp, 2.
  assert (P : pp_ok pp) by (unfold pp_ok; cbn; repeat split; (lia || reflexivity)).
  split; [exact P|]. split; [reflexivity|]. split; [exact two_no_commitment|]. intros sha.
  destruct (C44_AoP_forgery sha pp 2 (1, 1, 1) {| ar_Z3 := (0, 0, 0); ar_T3 := (0, 0, 0); ar_T := 0 |} P) as (pf & _ & _ & H).
  - reflexivity.
  - repeat split.
  - now exists pf.
Qed.
(** What does hold: the first message of an accepted proof is determined by the rest of it. Missing:
    everything about the committed value. *)
Theorem C44_AoP_sound_partial : forall sha v pf pf' junk,
  fst (AoP_Verify sha v pf junk) = Ret true -> fst (AoP_Verify sha v pf' junk) = Ret true ->
  ap_commit3 pf' = ap_commit3 pf -> ap_response pf' = ap_response pf -> pf' = pf.
Proof.
  intros sha v [c3 cm resp] [c3' cm' resp'] junk H H' E1 E2. cbn [ap_commit3 ap_response] in *. subst c3' resp'. f_equal.
  unfold AoP_Verify in *. cbn [fst av_c3 av_pp av_c av_commitment ap_commit3 ap_commitment ap_response deref bind] in *.
  unfold AoP_VerifyResponse in *. destruct c3 as [[c0 c1] c2]. destruct (ar_Z3 resp) as [[z0 z1] z2]. destruct (ar_T3 resp) as [[t0 t1] t2].
  repeat match type of H with
  | (do _ <- ?X; _) = _ => destruct X as [?| |]; cbn [bind] in *; try discriminate H
  end.
  injection H as H. injection H' as H'. apply String.eqb_eq in H. apply String.eqb_eq in H'. now rewrite <- H, <- H'.
Qed.

Theorem C46_RP_forgery : forall sha pp a b c c3 resp, pp_ok pp -> Z.gcd c (ppN pp) = 1 -> units3 (ppN pp) c3 ->
  exists pf, rp_c pf = c /\ rp_commit3 pf = c3 /\ rp_resp pf = resp /\
    fst (RP_Verify sha (NewRPVerifier pp a b) pf) = Ret true.
Proof.
  intros sha pp a b c c3 resp (HN & HG & HGc & HH & HHc) Hc H3.
  set (pf0 := {| rp_c := c; rp_commit3 := c3; rp_commit := ""%string; rp_resp := resp |}).
  destruct (RP_Verify_unfold sha pp a b pf0 HN HGc Hc) as (c0 & ca & Hc0 & Hca & U).
  destruct (RP_VerifyResponse_answers sha pp a b ca c0 c3 ""%string resp ltac:(lia) HGc HHc Hca Hc0 H3) as [v E].
  destruct (RP_VerifyResponse_forge sha pp a b ca _ resp v ""%string E) as [cm Ec].
  exists {| rp_c := c; rp_commit3 := c3; rp_commit := cm; rp_resp := resp |}.
  split; [reflexivity|]. split; [reflexivity|]. split; [reflexivity|].
  rewrite (U cm _ (NewRPVerifier pp a b)) by reflexivity. exact Ec.
Qed.
(** the empty range, and a commitment to nothing at all *)
Theorem C46_RP_sound_refuted : exists pp c, pp_ok pp /\ Z.gcd c (ppN pp) = 1 /\
  (forall x r, ~ commits_to (ppN pp) (ppG pp) (ppH pp) x r c) /\
  forall sha a b, exists pf, rp_c pf = c /\ fst (RP_Verify sha (NewRPVerifier pp a b) pf) = Ret true.
Proof.
  set (pp := {| ppN := 15; ppG := 4; ppH := 4 |}). exists pp, 2.
  assert (P : pp_ok pp) by (unfold pp_ok; cbn; repeat split; (lia || reflexivity)).
  split; [exact P|]. split; [reflexivity|]. split; [exact two_no_commitment|]. intros sha a b.
  destruct (C46_RP_forgery sha pp a b 2 (1, 1, 1) {| rr_Z4 := (0, 0, 0, 0); rr_T4 := (0, 0, 0, 0); rr_TAU := 0 |} P) as (pf & E & _ & _ & H).
  - reflexivity.
  - repeat split.
  - now exists pf.
Qed.
Theorem C46_RP_sound_partial : forall sha v pf pf',
  fst (RP_Verify sha v pf) = Ret true -> fst (RP_Verify sha v pf') = Ret true ->
  rp_c pf' = rp_c pf -> rp_commit3 pf' = rp_commit3 pf -> rp_resp pf' = rp_resp pf -> pf' = pf.
Proof.
  intros sha v [c c3 cm resp] [c' c3' cm' resp'] H H' E0 E1 E2. cbn [rp_c rp_commit3 rp_resp] in *. subst c' c3' resp'. f_equal.
  unfold RP_Verify in *. cbn [rp_c rp_commit3 rp_commit rp_resp] in *.
  destruct (mod_inverse c (ppN (rv_pp v))) as [inv|]; [|discriminate].
  destruct (bind (deref (big_exp (ppG (rv_pp v)) (rv_b v) _)) _) as [c0| |]; try discriminate.
  destruct (bind (go_mod _ _) _) as [ca| |]; try discriminate.
  cbn [fst rv_c0 rv_c3 rv_ca rv_a rv_b rv_commitment set_rest set_c0] in *. destruct c3 as [[c1 c2] c3].
  unfold RP_VerifyResponse in *. destruct (rr_Z4 resp) as [[[z0 z1] z2] z3]. destruct (rr_T4 resp) as [[[t0 t1] t2] t3].
  repeat match type of H with
  | (do _ <- ?X; _) = _ => destruct X as [?| |]; cbn [bind] in *; try discriminate H
  end.
  injection H as H. injection H' as H'. apply String.eqb_eq in H. apply String.eqb_eq in H'. now rewrite <- H, <- H'.
Qed.

(** ** C47 *)
Section Histories.
Variable sha : string -> string.
Fixpoint aop_after (v : aop_verifier) (l : list (aop_proof * Z)) : aop_verifier :=
  match l with [] => v | (pf, junk) :: l => aop_after (snd (AoP_Verify sha v pf junk)) l end.
Fixpoint rp_after (v : rp_verifier) (l : list rp_proof) : rp_verifier :=
  match l with [] => v | pf :: l => rp_after (snd (RP_Verify sha v pf)) l end.
Theorem C47_RP_reusable : forall pp a b history pf,
  fst (RP_Verify sha (rp_after (NewRPVerifier pp a b) history) pf) = fst (RP_Verify sha (NewRPVerifier pp a b) pf).
Proof.
  intros pp a b history pf.
  assert (I : forall l v, rv_pp v = pp -> rv_a v = a -> rv_b v = b ->
     rv_pp (rp_after v l) = pp /\ rv_a (rp_after v l) = a /\ rv_b (rp_after v l) = b).
  { induction l as [|p l IH]; intros v E1 E2 E3; [auto|]. cbn [rp_after].
    destruct (RP_Verify_state sha v p) as (S1 & S2 & S3). apply IH; congruence. }
  destruct (I history (NewRPVerifier pp a b) eq_refl eq_refl eq_refl) as (E1 & E2 & E3).
  rewrite RP_Verify_fresh, E1, E2, E3. reflexivity.
Qed.
(** Partial: H invertible. Missing: H not invertible, where the verdict depends on a recycled integer
    (false there). *)
Theorem C47_AoP_reusable_partial : forall pp c history pf junk junk', 0 < ppN pp -> Z.gcd (ppH pp) (ppN pp) = 1 ->
  fst (AoP_Verify sha (aop_after (NewZKAoPVerifier pp c) history) pf junk) = fst (AoP_Verify sha (NewZKAoPVerifier pp c) pf junk').
Proof.
  intros pp c history pf junk junk' HN HH.
  assert (I : forall l v, av_pp v = pp -> av_c v = c -> av_pp (aop_after v l) = pp /\ av_c (aop_after v l) = c).
  { induction l as [|[p j] l IH]; intros v E1 E2; [auto|]. cbn [aop_after]. apply IH; assumption. }
  destruct (I history (NewZKAoPVerifier pp c) eq_refl eq_refl) as (E1 & E2).
  rewrite AoP_Verify_fresh, E1, E2.
  cbn [AoP_Verify fst av_c3 av_pp av_c av_commitment NewZKAoPVerifier deref bind]. unfold AoP_VerifyResponse.
  assert (J : exp_recv junk (ppH pp) (ar_T (ap_response pf)) (ppN pp) = exp_recv junk' (ppH pp) (ar_T (ap_response pf)) (ppN pp)).
  { unfold exp_recv. destruct (big_exp_some (ppN pp) (ppH pp) (ar_T (ap_response pf)) HN HH) as [w ->]. reflexivity. }
  rewrite J. reflexivity.
Qed.
End Histories.
Theorem C47_AoP_stale_refuted : exists pp c pf junk junk', 0 < ppN pp /\
  fst (AoP_Verify toy_sha (NewZKAoPVerifier pp c) pf junk) = Ret true /\
  fst (AoP_Verify toy_sha (NewZKAoPVerifier pp c) pf junk') = Ret false.
Proof.
  set (pp := {| ppN := 15; ppG := 4; ppH := 3 |}).
  set (resp := {| ar_Z3 := (0, 0, 0); ar_T3 := (0, 0, 0); ar_T := -1 |}).
  set (e := aop_challenge toy_sha pp (1, 1, 1)).
  exists pp, 1, {| ap_commit3 := (1, 1, 1); ap_response := resp;
    ap_commitment := aop_commitment toy_sha (1, 1, 1) (up 15 4 (- e)) |}, 1, 2.
  split; [reflexivity|]. split; vm_compute; reflexivity.
Qed.
(** a verifier that has accepted one proof and crashed on another gives the verdict of a new one *)
Example C47_case :
  let pp := {| ppN := 77; ppG := 4; ppH := 9 |} in
  let k := {| rc_r3 := (1, 2, 3); rc_m4 := (4, 5, 6, 7); rc_s4 := (7, 8, 9, 10); rc_sigma := 11 |} in
  exists pf, RP_Prove toy_sha toy_squares pp 5 3 5 4 k = Ret pf /\
    let bad := {| rp_c := 7; rp_commit3 := (1, 1, 1); rp_commit := ""%string; rp_resp := rp_resp pf |} in
    let bad2 := {| rp_c := 4; rp_commit3 := (1, 2, 3); rp_commit := ""%string; rp_resp := rp_resp pf |} in
    fst (RP_Verify toy_sha (NewRPVerifier pp 3 5) bad) = Panic /\ fst (RP_Verify toy_sha (NewRPVerifier pp 3 5) bad2) = Ret false /\
    fst (RP_Verify toy_sha (rp_after toy_sha (NewRPVerifier pp 3 5) [bad2; pf; bad]) pf) = Ret true.
Proof. cbv zeta. eexists. split; [vm_compute; reflexivity|]. repeat split; vm_compute; reflexivity. Qed.

(** ** C48. Refuted: a component that is not invertible modulo N makes the verifiers crash. *)
Lemma exp_zero_nil : forall N k, 1 < N -> k < 0 -> big_exp 0 k N = None.
Proof.
  intros N k HN Hk. unfold big_exp. rewrite (proj2 (Z.eqb_neq N 0)) by lia.
  destruct (Z.leb_spec 0 k); [lia|].
  assert (E : mod_inverse 0 N = None); [|now rewrite E].
  apply mod_inverse_none; [lia|]. unfold coprime. rewrite Z.gcd_0_l. lia.
Qed.
Theorem C48_AoP_crash : forall sha pp c c1 c2 cm resp junk, pp_ok pp -> 0 < aop_challenge sha pp (0, c1, c2) ->
  fst (AoP_Verify sha (NewZKAoPVerifier pp c) {| ap_commit3 := (0, c1, c2); ap_commitment := cm; ap_response := resp |} junk) = Panic.
Proof.
  intros sha pp c c1 c2 cm [[[z0 z1] z2] [[t0 t1] t2] T] junk (HN & HG & HGc & HH & HHc) He.
  cbn [AoP_Verify fst av_c3 av_pp av_c av_commitment NewZKAoPVerifier ap_commit3 ap_commitment ap_response deref bind].
  unfold AoP_VerifyResponse. cbn [ar_Z3 ar_T3 ar_T].
  destruct (big_exp_some (ppN pp) (ppG pp) z0 ltac:(lia) HGc) as [u ->]. destruct (big_exp_some (ppN pp) (ppH pp) t0 ltac:(lia) HHc) as [w ->].
  rewrite exp_zero_nil by lia. reflexivity.
Qed.
Theorem C48_RP_crash : forall sha v pf, 0 < ppN (rv_pp v) -> Z.gcd (rp_c pf) (ppN (rv_pp v)) <> 1 ->
  fst (RP_Verify sha v pf) = Panic.
Proof.
  intros sha v pf HN Hc. unfold RP_Verify. rewrite mod_inverse_none by assumption. reflexivity.
Qed.
Theorem C48_verifiers_answer_refuted : exists pp sha, pp_ok pp /\
  (exists c pf, Z.gcd c (ppN pp) = 1 /\ forall junk, fst (AoP_Verify sha (NewZKAoPVerifier pp c) pf junk) = Panic) /\
  (exists a b pf, a < b /\ fst (RP_Verify sha (NewRPVerifier pp a b) pf) = Panic).
Proof.
  set (pp := {| ppN := 77; ppG := 4; ppH := 9 |}). exists pp, toy_sha.
  assert (P : pp_ok pp) by (unfold pp_ok; cbn; repeat split; (lia || reflexivity)).
  split; [exact P|]. split.
  - exists 4, {| ap_commit3 := (0, 1, 1); ap_commitment := ""%string; ap_response := {| ar_Z3 := (1, 2, 3); ar_T3 := (4, 5, 6); ar_T := 7 |} |}.
    split; [reflexivity|]. intros junk. apply C48_AoP_crash; [exact P|vm_compute; reflexivity].
  - exists 3, 5, {| rp_c := 7; rp_commit3 := (1, 1, 1); rp_commit := ""%string;
                    rp_resp := {| rr_Z4 := (1, 2, 3, 4); rr_T4 := (5, 6, 7, 8); rr_TAU := 9 |} |}.
    split; [lia|]. apply C48_RP_crash; [reflexivity|vm_compute; discriminate].
Qed.
(** Partial: with invertible components the verifiers return a boolean. Missing: the others (false
    there). *)
Theorem C48_verifiers_answer_partial : forall sha pp, pp_ok pp ->
  (forall c pf junk, Z.gcd c (ppN pp) = 1 -> units3 (ppN pp) (ap_commit3 pf) ->
     exists v, fst (AoP_Verify sha (NewZKAoPVerifier pp c) pf junk) = Ret v) /\
  (forall a b pf, Z.gcd (rp_c pf) (ppN pp) = 1 -> units3 (ppN pp) (rp_commit3 pf) ->
     exists v, fst (RP_Verify sha (NewRPVerifier pp a b) pf) = Ret v).
Proof.
  intros sha pp (HN & HG & HGc & HH & HHc). split.
  - intros c pf junk Hc H3.
    cbn [AoP_Verify fst av_c3 av_pp av_c av_commitment NewZKAoPVerifier deref bind].
    apply AoP_VerifyResponse_answers; auto; lia.
  - intros a b pf Hc H3. destruct (RP_Verify_unfold sha pp a b pf HN HGc Hc) as (c0 & ca & Hc0 & Hca & U).
    rewrite (U (rp_commit pf) pf (NewRPVerifier pp a b)) by reflexivity.
    apply RP_VerifyResponse_answers; auto; lia.
Qed.
Example C48_case : let pp := {| ppN := 77; ppG := 4; ppH := 9 |} in
  0 < aop_challenge toy_sha pp (0, 1, 1) /\ units3 77 (4, 9, 1) /\ Z.gcd 7 77 <> 1.
Proof. cbv zeta. split; [vm_compute; reflexivity|]. split; [repeat split|]. vm_compute. discriminate. Qed.

(** ** C49 *)
Theorem C49_AoP_refuses : forall sha GCD is_prime TS, squares_oracle GCD is_prime TS ->
  forall pp r x k res, x < 0 -> AoP_Prove sha TS pp r x k <> Ret res.
Proof.
  intros sha GCD is_prime TS HT pp r x k res Hx H. unfold AoP_Prove in H.
  rewrite (Z.shiftl_mul_pow2 x 2), (Z.mul_comm x) in H by lia. change (2 ^ 2) with 4 in H.
  destruct (calC pp r x); cbn [bind] in H; try discriminate.
  destruct (TS (4 * x + 1)) as [v| |] eqn:E; cbn [bind] in H; try discriminate.
  apply (oracle_nonneg GCD is_prime TS HT) in E. lia.
Qed.
(** Partial: a <= b. Missing: the inverted ranges (false there). *)
Theorem C49_RP_refuses_partial : forall sha GCD is_prime TS, squares_oracle GCD is_prime TS ->
  forall pp r a b x k res, a <= b -> x < a \/ b < x -> RP_Prove sha TS pp r a b x k <> Ret res.
Proof.
  intros sha GCD is_prime TS HT pp r a b x k res Hab Hx H. unfold RP_Prove in H.
  rewrite (Z.shiftl_mul_pow2 ((b - x) * (x - a)) 2), (Z.mul_comm ((b - x) * (x - a))) in H by lia. change (2 ^ 2) with 4 in H.
  destruct (calC pp r x); cbn [bind] in H; try discriminate.
  destruct (calCa pp a a0); cbn [bind] in H; try discriminate.
  destruct (TS (4 * ((b - x) * (x - a)) + 1)) as [v| |] eqn:E; cbn [bind] in H; try discriminate.
  apply (oracle_nonneg GCD is_prime TS HT) in E. clear H. nia.
Qed.
(** Refuted: whenever b < x < a the prover proves x in [a,b], and the verifier accepts *)
Theorem C49_RP_inverted : forall sha GCD is_prime TS, gcd_spec GCD -> squares_oracle GCD is_prime TS ->
  forall pp r a b x k v, pp_ok pp -> b < x < a -> (let '(m0, _, _, _) := rc_m4 k in 0 <= m0) ->
  TS (4 * ((b - x) * (x - a)) + 1) = Ret v ->
  exists pf, RP_Prove sha TS pp r a b x k = Ret pf /\ fst (RP_Verify sha (NewRPVerifier pp a b) pf) = Ret true.
Proof.
  intros sha GCD is_prime TS HG HT pp r a b x k v Hpp Hx Hm Ev.
  destruct (RP_Prove_returns sha TS pp r a b x k v Hpp Ev) as (pf & E & Ec). exists pf. split; [exact E|].
  apply (RP_complete sha TS pp r a b x k); [assumption|assumption| |exact E].
  intros t u w. exact (oracle_sum GCD is_prime TS HG HT _ t u w).
Qed.
Theorem C49_RP_refuses_refuted : exists sha TS pp r a b x k pf, pp_ok pp /\ ~ (a <= x <= b) /\
  (forall n t u w, TS n = Ret (t, u, w) -> t * t + u * u + w * w = n) /\
  RP_Prove sha TS pp r a b x k = Ret pf /\ fst (RP_Verify sha (NewRPVerifier pp a b) pf) = Ret true.
Proof.
  set (pp := {| ppN := 77; ppG := 4; ppH := 9 |}).
  exists toy_sha, (fun n => if n =? 5 then Ret (2, 1, 0) else OutOfFuel), pp, 5, 5, 3, 4,
    {| rc_r3 := (1, 2, 3); rc_m4 := (4, 5, 6, 7); rc_s4 := (7, 8, 9, 10); rc_sigma := 11 |}. eexists.
  split; [unfold pp_ok; cbn; repeat split; (lia || reflexivity)|]. split; [lia|]. split.
  { intros n t u w H. destruct (Z.eqb_spec n 5) as [->|]; [|discriminate]. injection H as <- <- <-. reflexivity. }
  split; [vm_compute; reflexivity|]. vm_compute. reflexivity.
Qed.
(** the target of the search is not negative for an inverted range, and the search can find it *)
Example C49_case :
  let pp := {| ppN := 77; ppG := 4; ppH := 9 |} in
  let k := {| rc_r3 := (1, 2, 3); rc_m4 := (4, 5, 6, 7); rc_s4 := (7, 8, 9, 10); rc_sigma := 11 |} in
  pp_ok pp /\ 3 < 4 < 5 /\ toy_squares (4 * ((3 - 4) * (4 - 5)) + 1) = Ret (2, 1, 0) /\
  exists pf, RP_Prove toy_sha toy_squares pp 5 5 3 4 k = Ret pf /\ fst (RP_Verify toy_sha (NewRPVerifier pp 5 3) pf) = Ret true.
Proof.
  cbv zeta. split; [unfold pp_ok; cbn; repeat split; (lia || reflexivity)|]. split; [lia|]. split; [reflexivity|].
  eexists. split; [vm_compute; reflexivity|]. vm_compute. reflexivity.
Qed.

Print Assumptions C43_AoP_complete.
Print Assumptions C44_AoP_forgery.
Print Assumptions C44_AoP_sound_refuted.
Print Assumptions C44_AoP_sound_partial.
Print Assumptions C45_RP_complete.
Print Assumptions C46_RP_forgery.
Print Assumptions C46_RP_sound_refuted.
Print Assumptions C46_RP_sound_partial.
Print Assumptions C47_RP_reusable.
Print Assumptions C47_AoP_reusable_partial.
Print Assumptions C47_AoP_stale_refuted.
Print Assumptions C48_AoP_crash.
Print Assumptions C48_RP_crash.
Print Assumptions C48_verifiers_answer_partial.
Print Assumptions C49_AoP_refuses.
Print Assumptions C49_RP_refuses_partial.
Print Assumptions C49_RP_inverted.
Print Assumptions C48_verifiers_answer_refuted.
Print Assumptions C49_RP_refuses_refuted.
