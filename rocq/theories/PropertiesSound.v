(** Theorems on what an accepted proof means: C38 (zero-knowledge proof of exponent), C44 (argument
    of positivity), C46 (range proof). The hash function and the primality test are arbitrary. *)
From Coq Require Import ZArith Zdiv Setoid Morphisms Bool Lia String List.
From Verif Require Import GoBig GoBigFacts Spec StrFacts FSModel FSProofs PokeModel PokeProofs SquaresModel
  RangeModel RangeProofs PropertiesHash PropertiesPoke PropertiesRange.
Import ListNotations.
Open Scope Z_scope.

(** ** C38, ZKPoKE: the verifier accepts exactly when its two equations hold, c and l being the
    challenges derived from the statement and the first message. *)
Theorem C38_ZKPoKE_membership_partial : forall sha is_prime, test_ok is_prime ->
  forall fuel pp u w z Ag Au Qg Qu rx rrho c t1 l t', pp_ok pp -> 0 <= u -> coprime u (ppN pp) ->
  let N := ppN pp in
  let first := ["ZKPoKE"%string; dec (ppG pp); dec (ppH pp); dec N; dec u; dec w; dec z; dec Ag; dec Au] in
  GetIntChallenge sha (InitTranscript first Max252) = (c, t1) ->
  GetPrimeChallenge sha is_prime fuel (InitTranscript (first ++ [dec c]) Max252) = Ret (l, t') ->
  (ZKPoKEVerify sha is_prime fuel pp u w
     (Some {| zk_z := z; zk_Ag := Ag; zk_Au := Au; zk_Qg := Qg; zk_Qu := Qu; zk_rx := rx; zk_rrho := rrho |}) = Ret true <->
   exists GR HR UR, is_power N (ppG pp) rx GR /\ is_power N (ppH pp) rrho HR /\ is_power N u rx UR /\
     (Qg ^ l * (GR * HR)) mod N = (z ^ c * Ag) mod N /\
     (Qu ^ l * UR) mod N = (w ^ c * Au) mod N).
Proof.
  intros sha is_prime Hp fuel pp u w z Ag Au Qg Qu rx rrho c t1 l t' (HN & HG & HGc & HH & HHc) Hu Huc N first Ec El.
  fold N in HN, HGc, HHc, Huc. assert (P : 0 < N) by lia.
  assert (Et : t1 = InitTranscript (first ++ [dec c]) Max252).
  { unfold GetIntChallenge in Ec. injection Ec as <- <-. reflexivity. }
  assert (Hc0 : 0 <= c). { unfold GetIntChallenge in Ec. injection Ec as <- _. apply wrap_range. }
  pose proof (prime_challenge_pos sha is_prime Hp _ _ _ _ El) as Hl.
  unfold ZKPoKEVerify. cbn [zk_z zk_Ag zk_Au zk_Qg zk_Qu zk_rx zk_rrho].
  change (zkpoke_transcript pp u w z Ag Au) with (InitTranscript first Max252). rewrite Ec, Et, El. cbn [bind]. fold N.
  rewrite !MultiExp_up by lia. cbn [bind]. rewrite !go_mod_ret, Z.abs_eq by lia. cbn [bind].
  rewrite !exp_recv_nonneg by lia.
  assert (L1 : (Qg ^ l mod N * ((up N (ppG pp) rx * up N (ppH pp) rrho) mod N)) mod N
               = (Qg ^ l * (up N (ppG pp) rx * up N (ppH pp) rrho)) mod N)
    by now rewrite mul_mod_idem_l, mul_mod_idem_r.
  assert (L2 : (up N Qu l * up N u rx) mod N = (Qu ^ l * up N u rx) mod N)
    by now rewrite up_nonneg, mul_mod_idem_l by lia.
  rewrite L1, L2, !mul_mod_idem_l. clear L1 L2.
  assert (U : forall g k v, 0 <= g -> coprime g N -> is_power N g k v <-> v = up N g k).
  { intros g k v H0 Hc. rewrite <- is_power_iff by (auto; lia). rewrite exp_recv_up. split; congruence. }
  destruct (Z.eqb_spec ((Qg ^ l * (up N (ppG pp) rx * up N (ppH pp) rrho)) mod N) ((z ^ c * Ag) mod N)) as [E1|E1];
    cbn [negb]; split.
  - rewrite go_mod_ret, Z.abs_eq by lia. cbn [bind]. intros E. injection E as E. apply Z.eqb_eq in E.
    exists (up N (ppG pp) rx), (up N (ppH pp) rrho), (up N u rx). rewrite !U by assumption. rewrite mul_mod_idem_l in E. auto 8.
  - intros (GR & HR & UR & V1 & V2 & V3 & _ & E2). apply U in V3; [|assumption|assumption]. subst UR.
    rewrite go_mod_ret, Z.abs_eq by lia. cbn [bind]. rewrite mul_mod_idem_l. f_equal. now apply Z.eqb_eq.
  - discriminate.
  - intros (GR & HR & UR & V1 & V2 & _ & E2 & _). apply U in V1; [|assumption|assumption]. apply U in V2; [|assumption|assumption].
    subst GR HR. contradiction.
Qed.
Lemma power_up : forall N g k v, 0 < N -> 0 <= g -> coprime g N -> is_power N g k v <-> v = up N g k.
Proof.
  intros N g k v P H0 Hc. rewrite <- is_power_iff by (auto; lia). rewrite exp_recv_up. split; congruence.
Qed.
(** same first message A, two challenges: the quotient of the two equations *)
Lemma fork : forall N w c c' A v v', 0 < N -> 0 <= w -> coprime w N -> 0 <= c -> 0 <= c' -> coprime v' N ->
  (w ^ c * A) mod N = v mod N -> (w ^ c' * A) mod N = v' mod N ->
  (up N w (c - c') * v') mod N = v mod N.
Proof.
  intros N w c c' A v v' P Hw Hwc Hc Hc' Hv E E'. rewrite <- mul_mod_idem_r, <- E', mul_mod_idem_r.
  rewrite Z.mul_assoc, <- mul_mod_idem_l, <- (mul_mod_idem_r _ (w ^ c')).
  rewrite <- (up_nonneg N w c') by assumption. rewrite up_add by assumption.
  replace (c - c' + c') with c by ring. rewrite up_nonneg, mul_mod_idem_l by assumption. exact E.
Qed.

(** ** C38: extraction. Two accepted proofs with the same statement and first message but different
    integer challenges (as obtained by rewinding a prover; the hash functions differ), whose Qu and
    Qg are known powers: then w^(c-c') = u^(s-s') and z^(c-c') = G^(s-s') H^(sr-sr') with explicit
    exponents, the same for w and z. *)
Theorem C38_ZKPoKE_extract : forall sha sha' is_prime, test_ok is_prime ->
  forall fuel pp u w z Ag Au Qg Qu rx rrho Qg' Qu' rx' rrho' c t1 l t2 c' t1' l' t2' q a b q' a' b',
  pp_ok pp -> 0 <= u -> coprime u (ppN pp) -> 0 <= w -> coprime w (ppN pp) -> 0 <= z -> coprime z (ppN pp) ->
  let N := ppN pp in
  GetIntChallenge sha (zkpoke_transcript pp u w z Ag Au) = (c, t1) -> GetPrimeChallenge sha is_prime fuel t1 = Ret (l, t2) ->
  GetIntChallenge sha' (zkpoke_transcript pp u w z Ag Au) = (c', t1') -> GetPrimeChallenge sha' is_prime fuel t1' = Ret (l', t2') ->
  ZKPoKEVerify sha is_prime fuel pp u w
     (Some {| zk_z := z; zk_Ag := Ag; zk_Au := Au; zk_Qg := Qg; zk_Qu := Qu; zk_rx := rx; zk_rrho := rrho |}) = Ret true ->
  ZKPoKEVerify sha' is_prime fuel pp u w
     (Some {| zk_z := z; zk_Ag := Ag; zk_Au := Au; zk_Qg := Qg'; zk_Qu := Qu'; zk_rx := rx'; zk_rrho := rrho' |}) = Ret true ->
  is_power N u q Qu -> is_power N u q' Qu' ->
  commits_to N (ppG pp) (ppH pp) a b Qg -> commits_to N (ppG pp) (ppH pp) a' b' Qg' ->
  (exists W, is_power N w (c - c') W /\ is_power N u ((q * l + rx) - (q' * l' + rx')) W) /\
  (exists Z, is_power N z (c - c') Z /\
     commits_to N (ppG pp) (ppH pp) ((a * l + rx) - (a' * l' + rx')) ((b * l + rrho) - (b' * l' + rrho')) Z).
Proof.
  intros sha sha' is_prime Hp fuel pp u w z Ag Au Qg Qu rx rrho Qg' Qu' rx' rrho' c t1 l t2 c' t1' l' t2' q a b q' a' b'
    Hpp Hu Huc Hw Hwc Hz Hzc N Ec El Ec' El' V V' Pq Pq' Pa Pa'.
  assert (Hpp' := Hpp). destruct Hpp' as (HN & HG & HGc & HH & HHc). fold N in HN, HGc, HHc, Huc, Hwc, Hzc.
  assert (P : 0 < N) by lia.
  assert (Et : t1 = InitTranscript (info (zkpoke_transcript pp u w z Ag Au) ++ [dec c]) Max252).
  { unfold GetIntChallenge in Ec. injection Ec as <- <-. reflexivity. }
  assert (Et' : t1' = InitTranscript (info (zkpoke_transcript pp u w z Ag Au) ++ [dec c']) Max252).
  { unfold GetIntChallenge in Ec'. injection Ec' as <- <-. reflexivity. }
  assert (Hc0 : 0 <= c). { unfold GetIntChallenge in Ec. injection Ec as <- _. apply wrap_range. }
  assert (Hc0' : 0 <= c'). { unfold GetIntChallenge in Ec'. injection Ec' as <- _. apply wrap_range. }
  pose proof (prime_challenge_pos sha is_prime Hp _ _ _ _ El) as Hl.
  pose proof (prime_challenge_pos sha' is_prime Hp _ _ _ _ El') as Hl'.
  rewrite Et in El. rewrite Et' in El'.
  apply (C38_ZKPoKE_membership_partial sha is_prime Hp fuel pp u w z Ag Au Qg Qu rx rrho c t1 l t2 Hpp Hu Huc Ec El) in V.
  apply (C38_ZKPoKE_membership_partial sha' is_prime Hp fuel pp u w z Ag Au Qg' Qu' rx' rrho' c' t1' l' t2' Hpp Hu Huc Ec' El') in V'.
  fold N in V, V'. destruct V as (GR & HR & UR & V1 & V2 & V3 & V4 & V5). destruct V' as (GR' & HR' & UR' & V1' & V2' & V3' & V4' & V5').
  apply power_up in V1, V2, V3, V1', V2', V3'; try assumption. apply power_up in Pq, Pq'; try assumption.
  destruct Pa as (A & B & PA & PB & ->). destruct Pa' as (A' & B' & PA' & PB' & ->).
  apply power_up in PA, PB, PA', PB'; try assumption. subst.
  fold (gh N (ppG pp) (ppH pp) a b) in V4. fold (gh N (ppG pp) (ppH pp) a' b') in V4'.
  set (G := ppG pp) in *. set (H := ppH pp) in *. split.
  - assert (S : forall q l rx, 1 < l -> (up N u q ^ l * up N u rx) mod N = up N u (q * l + rx)).
    { intros q0 l0 r0 H0. rewrite <- mul_mod_idem_l, <- up_nonneg by lia. now rewrite up_mul, up_add. }
    rewrite S in V5, V5' by assumption.
    exists (up N w (c - c')). split; [now apply power_up|]. apply power_up; try assumption.
    symmetry in V5, V5'. rewrite <- (Z.mod_small (up N u (q * l + rx)) N) in V5 by now apply up_range.
    rewrite <- (Z.mod_small (up N u (q' * l' + rx')) N) in V5' by now apply up_range.
    pose proof (fork N w c c' Au _ _ P Hw Hwc Hc0 Hc0' (up_unit N u (q' * l' + rx') P Hu Huc) V5 V5') as F.
    rewrite <- (Z.mod_small (up N w (c - c')) N) by now apply up_range.
    rewrite <- (Z.mod_small (up N u (q * l + rx - (q' * l' + rx'))) N) by now apply up_range.
    apply (unit_cancel (up N u (q' * l' + rx'))); [assumption|now apply up_unit|].
    rewrite F, up_add by assumption. replace (q * l + rx - (q' * l' + rx') + (q' * l' + rx')) with (q * l + rx) by ring.
    apply Z.mod_small. now apply up_range.
  - assert (S : forall a b l rx rr, 1 < l -> (gh N G H a b ^ l * (up N G rx * up N H rr)) mod N = gh N G H (a * l + rx) (b * l + rr)).
    { intros a0 b0 l0 r0 r1 H0. rewrite <- mul_mod_idem_l, <- up_nonneg by lia. rewrite gh_up by assumption.
      rewrite <- mul_mod_idem_r. fold (gh N G H r0 r1). now apply gh_mul_mod. }
    rewrite S in V4, V4' by assumption.
    exists (up N z (c - c')). split; [now apply power_up|].
    symmetry in V4, V4'. rewrite <- (Z.mod_small (gh N G H (a * l + rx) (b * l + rrho)) N) in V4 by (apply gh_range; assumption).
    rewrite <- (Z.mod_small (gh N G H (a' * l' + rx') (b' * l' + rrho')) N) in V4' by (apply gh_range; assumption).
    pose proof (fork N z c c' Ag _ _ P Hz Hzc Hc0 Hc0' (gh_unit N G H HN HG HGc HH HHc _ _) V4 V4') as F.
    assert (E : up N z (c - c') = gh N G H (a * l + rx - (a' * l' + rx')) (b * l + rrho - (b' * l' + rrho'))).
    { rewrite <- (Z.mod_small (up N z (c - c')) N) by now apply up_range.
      rewrite <- (Z.mod_small (gh N G H _ _) N) by (apply gh_range; assumption).
      apply (unit_cancel (gh N G H (a' * l' + rx') (b' * l' + rrho'))); [assumption|now apply gh_unit|].
      rewrite F, gh_mul_mod by assumption. rewrite Z.mod_small by (apply gh_range; assumption). f_equal; ring. }
    rewrite E. now apply gh_commits.
Qed.
(** two provers with the same coins and different hash functions give such a pair *)
Definition toy_sha' (s : string) : string := toy_sha (s ++ "!").
Example C38_extract_case :
  let pp := {| ppN := 77; ppG := 4; ppH := 9 |} in
  exists pf pf', ZKPoKEProve toy_sha toy_prime 300 pp 16 5 (16 ^ 5 mod 77) 123 45 67 = Ret (Some pf) /\
    ZKPoKEProve toy_sha' toy_prime 300 pp 16 5 (16 ^ 5 mod 77) 123 45 67 = Ret (Some pf') /\
    (zk_z pf, zk_Ag pf, zk_Au pf) = (zk_z pf', zk_Ag pf', zk_Au pf') /\
    fst (GetIntChallenge toy_sha (zkpoke_transcript pp 16 (16 ^ 5 mod 77) (zk_z pf) (zk_Ag pf) (zk_Au pf))) <>
    fst (GetIntChallenge toy_sha' (zkpoke_transcript pp 16 (16 ^ 5 mod 77) (zk_z pf) (zk_Ag pf) (zk_Au pf))) /\
    ZKPoKEVerify toy_sha toy_prime 300 pp 16 (16 ^ 5 mod 77) (Some pf) = Ret true /\
    ZKPoKEVerify toy_sha' toy_prime 300 pp 16 (16 ^ 5 mod 77) (Some pf') = Ret true.
Proof.
  cbv zeta. eexists _, _. split; [vm_compute; reflexivity|]. split; [vm_compute; reflexivity|].
  vm_compute. repeat split; discriminate.
Qed.

(** ** C44: what the argument of positivity checks. [d0 d1 d2 d] are the values whose hashes form
    the first message. *)
Definition aop_equations (N G H c : Z) (e : Z) (c3 z3 t3 d3 : Int3) (T d : Z) : Prop :=
  let '(c0, c1, c2) := c3 in let '(z0, z1, z2) := z3 in let '(t0, t1, t2) := t3 in let '(d0, d1, d2) := d3 in
  0 <= d0 < N /\ 0 <= d1 < N /\ 0 <= d2 < N /\ 0 <= d < N /\
  commits_to N G H z0 t0 ((d0 * c0 ^ e) mod N) /\
  commits_to N G H z1 t1 ((d1 * c1 ^ e) mod N) /\
  commits_to N G H z2 t2 ((d2 * c2 ^ e) mod N) /\
  exists w0 w1 w2 h, is_power N c0 z0 w0 /\ is_power N c1 z1 w1 /\ is_power N c2 z2 w2 /\ is_power N H T h /\
    (d * c ^ (4 * e) * G ^ e) mod N = (w0 * w1 * w2 * h) mod N.
Definition nonneg3 (c3 : Int3) : Prop := let '(c0, c1, c2) := c3 in 0 <= c0 /\ 0 <= c1 /\ 0 <= c2.

(** moving an inverse power to the other side *)
Lemma move : forall N c k A p, 0 < N -> 0 <= c -> coprime c N -> 0 <= k -> 0 <= p < N ->
  (A * up N c (- k)) mod N = p <-> (p * c ^ k) mod N = A mod N.
Proof.
  intros N c k A p P Hc Hcc Hk Hp.
  assert (I : (up N c (- k) * c ^ k) mod N = 1 mod N).
  { rewrite (up_rep N c (- k)) by (assumption || lia). now rewrite Z.add_opp_diag_l. }
  split.
  - intros <-. rewrite mul_mod_idem_l, <- Z.mul_assoc, <- mul_mod_idem_r, I, mul_mod_idem_r. now rewrite Z.mul_1_r.
  - intros E. rewrite <- (Z.mod_small p N) by assumption.
    apply (unit_cancel (c ^ k)); [assumption|now apply coprime_pow|].
    rewrite E, <- Z.mul_assoc, <- mul_mod_idem_r, I, mul_mod_idem_r. now rewrite Z.mul_1_r.
Qed.

Lemma aop_challenge_nonneg : forall sha pp c3, 0 <= aop_challenge sha pp c3.
Proof. intros sha pp [[c0 c1] c2]. apply set_bytes_bound. Qed.
Lemma rp_challenge_nonneg : forall sha pp a b c3, 0 <= rp_challenge sha pp a b c3.
Proof. intros sha pp a b [[c0 c1] c2]. apply set_bytes_bound. Qed.

Lemma commits_gh : forall pp x r c, pp_ok pp ->
  commits_to (ppN pp) (ppG pp) (ppH pp) x r c <-> c = gh (ppN pp) (ppG pp) (ppH pp) x r.
Proof.
  intros pp x r c Hpp. split; [|intros ->; now apply gh_commits].
  destruct Hpp as (HN & HG & HGc & HH & HHc). assert (P : 0 < ppN pp) by lia.
  intros (u & v & Hu & Hv & ->). apply power_up in Hu, Hv; try assumption. subst. reflexivity.
Qed.

Lemma append_nil : forall s : string, (s ++ "")%string = s.
Proof. induction s as [|a s IH]; [reflexivity|]. cbn. now rewrite IH. Qed.
(** equality modulo N of products, up to inner reductions *)
#[local] Existing Instance Zmult_eqm.
#[local] Existing Instance eqm_setoid.
Ltac strip N := match goal with |- ?x mod N = ?y mod N => change (eqm N x y) end;
  repeat match goal with |- context [?x mod N] => rewrite (Zmod_eqm N x) end;
  match goal with |- eqm N ?x ?y => replace x with y by ring end; reflexivity.

Theorem C44_AoP_equations : forall sha pp c c3 cm z3 t3 T junk, pp_ok pp -> 0 <= c -> coprime c (ppN pp) ->
  nonneg3 c3 -> units3 (ppN pp) c3 ->
  let e := aop_challenge sha pp c3 in
  (fst (AoP_Verify sha (NewZKAoPVerifier pp c)
     {| ap_commit3 := c3; ap_commitment := cm; ap_response := {| ar_Z3 := z3; ar_T3 := t3; ar_T := T |} |} junk) = Ret true <->
   exists d0 d1 d2 d, aop_equations (ppN pp) (ppG pp) (ppH pp) c e c3 z3 t3 (d0, d1, d2) T d /\
     cm = (sha (big_bytes d0) ++ sha (big_bytes d1) ++ sha (big_bytes d2) ++ sha (big_bytes d))%string).
Proof.
  intros sha pp c [[c0 c1] c2] cm [[z0 z1] z2] [[t0 t1] t2] T junk Hpp Hc Hcc (Hc0 & Hc1 & Hc2) (U0 & U1 & U2) e.
  assert (Hpp' := Hpp). destruct Hpp' as (HN & HG & HGc & HH & HHc). pose proof (aop_challenge_nonneg sha pp (c0, c1, c2)) as He. fold e in He.
  set (N := ppN pp) in *. set (G := ppG pp) in *. set (H := ppH pp) in *. assert (P : 0 < N) by lia.
  unfold AoP_Verify, NewZKAoPVerifier. cbn [fst av_c3 av_pp av_c av_commitment ap_commit3 ap_commitment ap_response deref bind].
  unfold AoP_VerifyResponse. cbn [ar_Z3 ar_T3 ar_T fold3]. fold N G H e. rewrite (Z.shiftl_mul_pow2 (- e) 2) by lia. change (2 ^ 2) with 4.
  assert (M : forall d x k, 0 <= x -> coprime x N -> mul_exp N d x k = Ret ((d * up N x k) mod N)).
  { intros d x k Hx Hxc. unfold mul_exp. rewrite big_exp_up by assumption. cbn [deref bind]. now rewrite go_mod_ret, Z.abs_eq by lia. }
  assert (EJ : exp_recv junk H T N = up N H T) by (unfold exp_recv; now rewrite big_exp_up).
  assert (GM : forall a, go_mod a N = Ret (a mod N)) by (intros; now rewrite go_mod_ret, Z.abs_eq by lia).
  rewrite EJ.
  repeat (rewrite ?big_exp_up, ?GM, ?M by assumption; cbn [deref bind]).
  set (p0 := (up N G z0 * up N H t0 * up N c0 (- e)) mod N). set (p1 := (up N G z1 * up N H t1 * up N c1 (- e)) mod N).
  set (p2 := (up N G z2 * up N H t2 * up N c2 (- e)) mod N).
  match goal with |- context [aop_commitment sha (p0, p1, p2) ?x] => set (last := x) end.
  assert (F : forall z t ci p, 0 <= ci -> coprime ci N -> 0 <= p < N ->
     (commits_to N G H z t ((p * ci ^ e) mod N) <-> p = (up N G z * up N H t * up N ci (- e)) mod N)).
  { intros z t ci p H0 H1 H2. unfold N, G, H at 1. rewrite (commits_gh pp) by assumption. fold N G H. unfold gh.
    rewrite <- (move N ci e (up N G z * up N H t) p P H0 H1 He H2). split; congruence. }
  assert (L : forall d, 0 <= d < N ->
     ((exists w0 w1 w2 h, is_power N c0 z0 w0 /\ is_power N c1 z1 w1 /\ is_power N c2 z2 w2 /\ is_power N H T h /\
         (d * c ^ (4 * e) * G ^ e) mod N = (w0 * w1 * w2 * h) mod N) <-> d = last)).
  { intros d Hd.
    assert (EL : last = (((up N c0 z0 * up N c1 z1 * up N c2 z2 * up N H T) * up N c (- (4 * e))) * up N G (- e)) mod N).
    { unfold last. replace (- e * 4) with (- (4 * e)) by ring. strip N. }
    assert (EV : (d * c ^ (4 * e) * G ^ e) mod N = (up N c0 z0 * up N c1 z1 * up N c2 z2 * up N H T) mod N <-> d = last).
    { rewrite EL. set (W := up N c0 z0 * up N c1 z1 * up N c2 z2 * up N H T).
      split.
      - intros E. symmetry. apply (move N G e (W * up N c (- (4 * e))) d P HG HGc He Hd).
        rewrite <- (Z.mod_small ((d * G ^ e) mod N) N), Z.mod_mod by (lia || now apply Z.mod_pos_bound).
        assert (E2 : (((d * G ^ e) mod N) * c ^ (4 * e)) mod N = W mod N) by (rewrite mul_mod_idem_l, <- E; f_equal; ring).
        apply (move N c (4 * e) W _ P Hc Hcc) in E2; [|lia|now apply Z.mod_pos_bound]. now rewrite E2.
      - intros E. symmetry in E. apply (move N G e (W * up N c (- (4 * e))) d P HG HGc He Hd) in E. symmetry in E.
        apply (move N c (4 * e) W _ P Hc Hcc) in E; [|lia|now apply Z.mod_pos_bound]. rewrite mul_mod_idem_l in E.
        rewrite <- E. f_equal. ring. }
    split.
    - intros (w0 & w1 & w2 & h & P0 & P1 & P2 & P3 & E). apply power_up in P0, P1, P2, P3; try assumption. subst. now apply EV.
    - intros E. exists (up N c0 z0), (up N c1 z1), (up N c2 z2), (up N H T). rewrite !power_up by assumption.
      repeat (split; [reflexivity|]). now apply EV. }
  assert (R : forall x, 0 <= x mod N < N) by (intros; now apply Z.mod_pos_bound).
  split.
  - intros E. injection E as E. apply String.eqb_eq in E. exists p0, p1, p2, last. split.
    + unfold aop_equations. repeat (split; [apply R|]).
      repeat (split; [apply F; [assumption|assumption|apply R|reflexivity]|]). apply L; [apply R|reflexivity].
    + rewrite <- E. cbn [aop_commitment written fold_right]. now rewrite append_nil.
  - intros (d0 & d1 & d2 & d & (R0 & R1 & R2 & R3 & F0 & F1 & F2 & FL) & ->). apply F in F0, F1, F2; try assumption.
    apply L in FL; [|assumption]. subst. f_equal. apply String.eqb_eq. cbn [aop_commitment written fold_right]. now rewrite append_nil.
Qed.
Lemma move' : forall N c k A p, 0 < N -> 0 <= c -> coprime c N -> 0 <= p < N ->
  p = (A * up N c (- k)) mod N <-> (p * up N c k) mod N = A mod N.
Proof.
  intros N c k A p P Hc Hcc Hp.
  assert (I : (up N c (- k) * up N c k) mod N = 1 mod N) by (rewrite Z.mul_comm; now apply up_inv).
  split.
  - intros ->. rewrite mul_mod_idem_l, <- Z.mul_assoc, <- mul_mod_idem_r, I, mul_mod_idem_r. now rewrite Z.mul_1_r.
  - intros E. rewrite <- (Z.mod_small p N) by assumption.
    apply (unit_cancel (up N c k)); [assumption|now apply up_unit|].
    rewrite E, <- Z.mul_assoc, <- mul_mod_idem_r, I, mul_mod_idem_r. now rewrite Z.mul_1_r.
Qed.

(** ** C46: what the range proof checks. c0 stands for G^b / c and A for c / G^a; d0..d3 and d are
    the values whose hashes form the first message. *)
Definition rp_equations (N G H a b c : Z) (e : Z) (c3 : Int3) (z4 t4 d4 : Int4) (T d : Z) : Prop :=
  let '(c1, c2, c3) := c3 in let '(z0, z1, z2, z3) := z4 in let '(t0, t1, t2, t3) := t4 in let '(d0, d1, d2, d3) := d4 in
  0 <= d0 < N /\ 0 <= d1 < N /\ 0 <= d2 < N /\ 0 <= d3 < N /\ 0 <= d < N /\
  exists c0 gb A ga, 0 <= c0 < N /\ is_power N G b gb /\ (c0 * c) mod N = gb /\
    0 <= A < N /\ is_power N G a ga /\ (A * ga) mod N = c mod N /\
  commits_to N G H z0 t0 ((d0 * c0 ^ e) mod N) /\
  commits_to N G H z1 t1 ((d1 * c1 ^ e) mod N) /\
  commits_to N G H z2 t2 ((d2 * c2 ^ e) mod N) /\
  commits_to N G H z3 t3 ((d3 * c3 ^ e) mod N) /\
  exists wa w1 w2 w3 h, is_power N A (4 * z0) wa /\ is_power N c1 z1 w1 /\ is_power N c2 z2 w2 /\ is_power N c3 z3 w3 /\
    is_power N H T h /\ (d * w1 * w2 * w3) mod N = (h * G ^ e * wa) mod N.

Theorem C46_RP_equations : forall sha pp a b c c3 cm z4 t4 T, pp_ok pp -> 0 <= c -> coprime c (ppN pp) ->
  nonneg3 c3 -> units3 (ppN pp) c3 ->
  let e := rp_challenge sha pp a b c3 in
  (fst (RP_Verify sha (NewRPVerifier pp a b)
     {| rp_c := c; rp_commit3 := c3; rp_commit := cm; rp_resp := {| rr_Z4 := z4; rr_T4 := t4; rr_TAU := T |} |}) = Ret true <->
   exists d0 d1 d2 d3 d, rp_equations (ppN pp) (ppG pp) (ppH pp) a b c e c3 z4 t4 (d0, d1, d2, d3) T d /\
     cm = (sha (big_bytes d0) ++ sha (big_bytes d1) ++ sha (big_bytes d2) ++ sha (big_bytes d3) ++ sha (big_bytes d))%string).
Proof.
  intros sha pp a b c [[c1 c2] c3] cm [[[z0 z1] z2] z3] [[[t0 t1] t2] t3] T Hpp Hc Hcc (Hc1 & Hc2 & Hc3) (U1 & U2 & U3) e.
  assert (Hpp' := Hpp). destruct Hpp' as (HN & HG & HGc & HH & HHc). pose proof (rp_challenge_nonneg sha pp a b (c1, c2, c3)) as He. fold e in He.
  unfold RP_Verify, NewRPVerifier. cbn [rv_pp rv_a rv_b rp_c rp_commit3 rp_commit rp_resp].
  set (N := ppN pp) in *. set (G := ppG pp) in *. set (H := ppH pp) in *. assert (P : 0 < N) by (clear -HN; lia).
  assert (M : forall d x k, 0 <= x -> coprime x N -> mul_exp N d x k = Ret ((d * up N x k) mod N)).
  { intros d x k Hx Hxc. unfold mul_exp. rewrite big_exp_up by assumption. cbn [deref bind]. now rewrite go_mod_ret, Z.abs_eq by lia. }
  assert (GM : forall a, go_mod a N = Ret (a mod N)) by (intros; now rewrite go_mod_ret, Z.abs_eq by lia).
  assert (R : forall x, 0 <= x mod N < N) by (intros; now apply Z.mod_pos_bound).
  rewrite mod_inverse_up by assumption. rewrite (big_exp_up N G b) by assumption. cbn [deref bind]. rewrite GM.
  assert (EA : exp_recv (- a) G (- a) N = up N G (- a)) by (unfold exp_recv; now rewrite big_exp_up).
  rewrite EA, GM. cbn [bind]. rewrite exp_recv_up. set (A := (c * up N G (- a)) mod N). set (c0 := (up N c (-1) * up N G b) mod N).
  assert (RA : 0 <= A < N) by apply R. assert (R0 : 0 <= c0 < N) by apply R.
  assert (UA : coprime A N). { apply coprime_mod; [assumption|]. apply coprime_mul; [assumption|now apply up_unit]. }
  assert (U0 : coprime c0 N). { apply coprime_mod; [assumption|]. apply coprime_mul; now apply up_unit. }
  assert (Hc0 : 0 <= c0) by apply R0. assert (HA : 0 <= A) by apply RA.
  cbn [fst rv_c0 rv_c3 rv_ca rv_commitment rv_a rv_b set_rest set_c0].
  unfold RP_VerifyResponse. cbn [rr_Z4 rr_T4 rr_TAU fold3]. fold N G H e.
  pose proof (up_range N A 4 P HA UA) as [HA4 _]. pose proof (up_unit N A 4 P HA UA) as UA4.
  repeat (rewrite ?big_exp_up, ?GM, ?M by assumption; cbn [deref bind]). rewrite up_mul by assumption.
  set (p0 := (up N G z0 * up N H t0 * up N c0 (- e)) mod N). set (p1 := (up N G z1 * up N H t1 * up N c1 (- e)) mod N).
  set (p2 := (up N G z2 * up N H t2 * up N c2 (- e)) mod N). set (p3 := (up N G z3 * up N H t3 * up N c3 (- e)) mod N).
  match goal with |- context [rp_commitment sha (p0, p1, p2, p3) ?x] => set (last := x) end.
  assert (F : forall z t ci p, 0 <= ci -> coprime ci N -> 0 <= p < N ->
     (commits_to N G H z t ((p * ci ^ e) mod N) <-> p = (up N G z * up N H t * up N ci (- e)) mod N)).
  { intros z t ci p H0 H1 H2. unfold N, G, H at 1. rewrite (commits_gh pp) by assumption. fold N G H. unfold gh.
    rewrite <- (move N ci e (up N G z * up N H t) p P H0 H1 He H2). split; congruence. }
  assert (E0 : forall x, 0 <= x < N -> (x * c) mod N = up N G b <-> x = c0).
  { intros x Hx. rewrite <- (Z.mod_small (up N G b) N) by now apply up_range. unfold c0.
    rewrite (Z.mul_comm (up N c (-1))), (move' N c 1 (up N G b) x P Hc Hcc Hx). rewrite up_1 by assumption. now rewrite mul_mod_idem_r. }
  assert (EA' : forall x, 0 <= x < N -> (x * up N G a) mod N = c mod N <-> x = A).
  { intros x Hx. unfold A. now rewrite (move' N G a c x P HG HGc Hx). }
  assert (L : forall d, 0 <= d < N ->
     ((exists wa w1 w2 w3 h, is_power N A (4 * z0) wa /\ is_power N c1 z1 w1 /\ is_power N c2 z2 w2 /\ is_power N c3 z3 w3 /\
        is_power N H T h /\ (d * w1 * w2 * w3) mod N = (h * G ^ e * wa) mod N) <-> d = last)).
  { intros d Hd. set (W := up N H T * G ^ e * up N A (4 * z0)).
    assert (EL : last = (((W * up N c1 (- z1)) * up N c2 (- z2)) * up N c3 (- z3)) mod N).
    { unfold last, W. rewrite (up_nonneg N G e) by assumption. strip N. }
    assert (EV : (d * up N c1 z1 * up N c2 z2 * up N c3 z3) mod N = W mod N <-> d = last).
    { rewrite EL. rewrite (move' N c3 z3 _ d P Hc3 U3 Hd).
      rewrite <- (Z.mod_mod (d * up N c3 z3)) by (clear -P; lia).
      rewrite (Z.mod_small ((d * up N c3 z3) mod N) N) by apply R.
      rewrite (move' N c2 z2 _ _ P Hc2 U2 (R _)). rewrite <- (Z.mod_small ((_ * up N c2 z2) mod N) N) by apply R.
      rewrite (Z.mod_small (((d * up N c3 z3) mod N * up N c2 z2) mod N) N) by apply R.
      rewrite (move' N c1 z1 _ _ P Hc1 U1 (R _)).
      match goal with |- ?x mod N = _ <-> ?y mod N = _ => assert (X : x mod N = y mod N) by strip N end. now rewrite X. }
    split.
    - intros (wa & w1 & w2 & w3 & h & PA & P1 & P2 & P3 & PH & E). apply power_up in PA, P1, P2, P3, PH; try assumption. subst. now apply EV.
    - intros E. exists (up N A (4 * z0)), (up N c1 z1), (up N c2 z2), (up N c3 z3), (up N H T). rewrite !power_up by assumption.
      repeat (split; [reflexivity|]). now apply EV. }
  split.
  - intros E. injection E as E. apply String.eqb_eq in E. exists p0, p1, p2, p3, last. split.
    + unfold rp_equations. repeat (split; [apply R|]). exists c0, (up N G b), A, (up N G a). split; [assumption|].
      split; [now apply power_up|]. split; [now apply E0|]. split; [assumption|]. split; [now apply power_up|]. split; [now apply EA'|].
      repeat (split; [apply F; [assumption|assumption|apply R|reflexivity]|]). apply L; [apply R|reflexivity].
    + rewrite <- E. cbn [rp_commitment written fold_right]. now rewrite append_nil.
  - intros (d0 & d1 & d2 & d3 & d & (Q0 & Q1 & Q2 & Q3 & Q4 & x0 & gb & xA & ga & B0 & B1 & B2 & B3 & B4 & B5 & F0 & F1 & F2 & F3 & FL) & ->).
    apply power_up in B1, B4; try assumption. subst gb ga. apply E0 in B2; [|assumption]. apply EA' in B5; [|assumption]. subst x0 xA.
    apply F in F0, F1, F2, F3; try assumption. apply L in FL; [|assumption]. subst. f_equal. apply String.eqb_eq.
    cbn [rp_commitment written fold_right]. now rewrite append_nil.
Qed.

(** ** C44, C46: special soundness. If the challenge did depend on the first message, a prover could
    be rewound: two accepted proofs with the same commitments c3 and the same first message, but
    different challenges. The two hash functions agree on the values committed to, give 32-byte
    digests and do not collide there. *)
Definition same_binding (sha sha' : string -> string) (N : Z) : Prop :=
  (forall x, 0 <= x < N -> sha' (big_bytes x) = sha (big_bytes x) /\ String.length (sha (big_bytes x)) = 32%nat) /\
  (forall x y, 0 <= x < N -> 0 <= y < N -> sha (big_bytes x) = sha (big_bytes y) -> x = y).
(** no element but 1 becomes 1 when raised to the D-th power *)
Definition no_torsion (N D : Z) : Prop := forall y, 0 <= y < N -> is_power N y D (1 mod N) -> y = 1 mod N.

Lemma fork_commit : forall pp ci e e' d z t z' t', pp_ok pp -> 0 <= ci -> coprime ci (ppN pp) -> 0 <= e -> 0 <= e' ->
  commits_to (ppN pp) (ppG pp) (ppH pp) z t ((d * ci ^ e) mod ppN pp) ->
  commits_to (ppN pp) (ppG pp) (ppH pp) z' t' ((d * ci ^ e') mod ppN pp) ->
  up (ppN pp) ci (e - e') = gh (ppN pp) (ppG pp) (ppH pp) (z - z') (t - t').
Proof.
  intros pp ci e e' d z t z' t' Hpp Hci Hcc He He' E E'. rewrite commits_gh in E, E' by assumption.
  destruct Hpp as (HN & HG & HGc & HH & HHc). set (N := ppN pp) in *. set (G := ppG pp) in *. set (H := ppH pp) in *.
  assert (P : 0 < N) by (clear -HN; lia).
  rewrite Z.mul_comm, <- (Z.mod_small (gh N G H z t) N) in E by (apply gh_range; assumption).
  rewrite Z.mul_comm, <- (Z.mod_small (gh N G H z' t') N) in E' by (apply gh_range; assumption).
  pose proof (fork N ci e e' d _ _ P Hci Hcc He He' (gh_unit N G H HN HG HGc HH HHc _ _) E E') as F.
  rewrite <- (Z.mod_small (up N ci (e - e')) N) by now apply up_range.
  rewrite <- (Z.mod_small (gh N G H (z - z') (t - t')) N) by (apply gh_range; assumption).
  apply (unit_cancel (gh N G H z' t')); [assumption|now apply gh_unit|].
  rewrite F, gh_mul_mod by assumption. rewrite Z.mod_small by (apply gh_range; assumption). f_equal; ring.
Qed.
(** the D-th root is unique *)
Lemma root_commit : forall pp ci D x r, pp_ok pp -> 0 <= ci < ppN pp -> coprime ci (ppN pp) -> no_torsion (ppN pp) D ->
  up (ppN pp) ci D = gh (ppN pp) (ppG pp) (ppH pp) (D * x) (D * r) -> ci = gh (ppN pp) (ppG pp) (ppH pp) x r.
Proof.
  intros pp ci D x r (HN & HG & HGc & HH & HHc) [Hci Hci2] Hcc HT E.
  set (N := ppN pp) in *. set (G := ppG pp) in *. set (H := ppH pp) in *. assert (P : 0 < N) by (clear -HN; lia).
  assert (Rg := gh_range N G H HN (- x) (- r)). assert (Ug := gh_unit N G H HN HG HGc HH HHc (- x) (- r)).
  assert (Y : (ci * gh N G H (- x) (- r)) mod N = 1 mod N).
  { apply HT; [now apply Z.mod_pos_bound|]. apply power_up; [assumption|apply Z.mod_pos_bound; assumption|now apply coprime_mod; [|apply coprime_mul]|].
    rewrite up_mul_base by (assumption || apply Rg). rewrite E, gh_up, gh_mul_mod by assumption.
    replace (D * x + - x * D) with 0 by ring. replace (D * r + - r * D) with 0 by ring.
    rewrite <- gh_G by assumption. now rewrite up_0. }
  rewrite <- (Z.mod_small ci N) by (split; assumption). rewrite <- (Z.mod_small (gh N G H x r) N) by (apply gh_range; assumption).
  apply (unit_cancel (gh N G H (- x) (- r))); [assumption|assumption|]. rewrite Y, gh_mul_mod by assumption.
  replace (x + - x) with 0 by ring. replace (r + - r) with 0 by ring. rewrite <- gh_G by assumption. now rewrite up_0.
Qed.

Lemma digests4 : forall sha sha' N d0 d1 d2 d3 x0 x1 x2 x3, same_binding sha sha' N ->
  0 <= d0 < N -> 0 <= d1 < N -> 0 <= d2 < N -> 0 <= d3 < N -> 0 <= x0 < N -> 0 <= x1 < N -> 0 <= x2 < N -> 0 <= x3 < N ->
  (sha (big_bytes d0) ++ sha (big_bytes d1) ++ sha (big_bytes d2) ++ sha (big_bytes d3) =
   sha' (big_bytes x0) ++ sha' (big_bytes x1) ++ sha' (big_bytes x2) ++ sha' (big_bytes x3))%string ->
  d0 = x0 /\ d1 = x1 /\ d2 = x2 /\ d3 = x3.
Proof.
  intros sha sha' N d0 d1 d2 d3 x0 x1 x2 x3 (B1 & B2) H0 H1 H2 H3 H4 H5 H6 H7 E.
  rewrite (proj1 (B1 x0 H4)), (proj1 (B1 x1 H5)), (proj1 (B1 x2 H6)), (proj1 (B1 x3 H7)) in E.
  assert (L : forall x y, 0 <= x < N -> 0 <= y < N -> String.length (sha (big_bytes x)) = String.length (sha (big_bytes y))).
  { intros x y Hx Hy. now rewrite (proj2 (B1 x Hx)), (proj2 (B1 y Hy)). }
  apply append_split in E; [|now apply L]. destruct E as [E0 E]. apply append_split in E; [|now apply L]. destruct E as [E1 E].
  apply append_split in E; [|now apply L]. destruct E as [E2 E3]. auto 10.
Qed.

Theorem C44_AoP_special_sound_partial : forall sha sha' pp c c3 cm z3 t3 T z3' t3' T' junk junk',
  pp_ok pp -> 0 <= c -> coprime c (ppN pp) -> nonneg3 c3 -> units3 (ppN pp) c3 -> same_binding sha sha' (ppN pp) ->
  let N := ppN pp in let G := ppG pp in let H := ppH pp in
  let D := aop_challenge sha pp c3 - aop_challenge sha' pp c3 in
  fst (AoP_Verify sha (NewZKAoPVerifier pp c)
     {| ap_commit3 := c3; ap_commitment := cm; ap_response := {| ar_Z3 := z3; ar_T3 := t3; ar_T := T |} |} junk) = Ret true ->
  fst (AoP_Verify sha' (NewZKAoPVerifier pp c)
     {| ap_commit3 := c3; ap_commitment := cm; ap_response := {| ar_Z3 := z3'; ar_T3 := t3'; ar_T := T' |} |} junk') = Ret true ->
  let '(c0, c1, c2) := c3 in let '(z0, z1, z2) := z3 in let '(t0, t1, t2) := t3 in
  let '(z0', z1', z2') := z3' in let '(t0', t1', t2') := t3' in
  (* the D-th powers of the commitments are opened *)
  (exists W, is_power N c0 D W /\ commits_to N G H (z0 - z0') (t0 - t0') W) /\
  (exists W, is_power N c1 D W /\ commits_to N G H (z1 - z1') (t1 - t1') W) /\
  (exists W, is_power N c2 D W /\ commits_to N G H (z2 - z2') (t2 - t2') W) /\
  (* and when the quotients are integers, roots unique, and c opens to (x, r), then x is not
     negative, or else a relation between G and H with a non-zero exponent of G is exhibited *)
  (forall x r x0 x1 x2 r0 r1 r2, c0 < N -> c1 < N -> c2 < N -> no_torsion N D -> D <> 0 ->
     commits_to N G H x r c ->
     z0 - z0' = D * x0 -> z1 - z1' = D * x1 -> z2 - z2' = D * x2 ->
     t0 - t0' = D * r0 -> t1 - t1' = D * r1 -> t2 - t2' = D * r2 ->
     let alpha := D * (4 * x + 1 - (x0 ^ 2 + x1 ^ 2 + x2 ^ 2)) in
     let beta := D * (4 * r - (r0 * x0 + r1 * x1 + r2 * x2)) - (T - T') in
     commits_to N G H alpha beta (1 mod N) /\ (x < 0 -> alpha <> 0) /\
     ((forall b, commits_to N G H alpha b (1 mod N) -> alpha = 0) -> 0 <= x)).
Proof.
  intros sha sha' pp c [[c0 c1] c2] cm [[z0 z1] z2] [[t0 t1] t2] T [[z0' z1'] z2'] [[t0' t1'] t2'] T' junk junk'
    Hpp Hc Hcc Hn3 Hu3 HB N G H D V V'.
  apply (C44_AoP_equations sha pp c (c0, c1, c2) cm (z0, z1, z2) (t0, t1, t2) T junk Hpp Hc Hcc Hn3 Hu3) in V.
  apply (C44_AoP_equations sha' pp c (c0, c1, c2) cm (z0', z1', z2') (t0', t1', t2') T' junk' Hpp Hc Hcc Hn3 Hu3) in V'.
  destruct V as (d0 & d1 & d2 & d & V & ->). destruct V' as (y0 & y1 & y2 & y & V' & E).
  set (e := aop_challenge sha pp (c0, c1, c2)) in *. set (e' := aop_challenge sha' pp (c0, c1, c2)) in *.
  assert (He : 0 <= e) by apply aop_challenge_nonneg. assert (He' : 0 <= e') by apply aop_challenge_nonneg.
  unfold aop_equations in V, V'. fold N G H in V, V'. destruct V as (R0 & R1 & R2 & R3 & F0 & F1 & F2 & w0 & w1 & w2 & h & P0 & P1 & P2 & PH & FL).
  destruct V' as (R0' & R1' & R2' & R3' & F0' & F1' & F2' & w0' & w1' & w2' & h' & P0' & P1' & P2' & PH' & FL').
  destruct (digests4 sha sha' N d0 d1 d2 d y0 y1 y2 y HB R0 R1 R2 R3 R0' R1' R2' R3' E) as (<- & <- & <- & <-).
  destruct Hn3 as (Hc0 & Hc1 & Hc2). destruct Hu3 as (U0 & U1 & U2).
  pose proof (fork_commit pp c0 e e' d0 z0 t0 z0' t0' Hpp Hc0 U0 He He' F0 F0') as K0.
  pose proof (fork_commit pp c1 e e' d1 z1 t1 z1' t1' Hpp Hc1 U1 He He' F1 F1') as K1.
  pose proof (fork_commit pp c2 e e' d2 z2 t2 z2' t2' Hpp Hc2 U2 He He' F2 F2') as K2.
  clear F0 F0' F1 F1' F2 F2' E R0 R1 R2 R0' R1' R2' R3'.
  assert (Hpp' := Hpp). destruct Hpp' as (HN & HG & HGc & HH & HHc). fold N G H in HN, HG, HGc, HH, HHc, K0, K1, K2, U0, U1, U2, Hcc.
  assert (P : 0 < N) by (clear -HN; lia). fold D in K0, K1, K2.
  assert (KW : forall ci z t, 0 <= ci -> coprime ci N -> up N ci D = gh N G H z t ->
     exists W, is_power N ci D W /\ commits_to N G H z t W).
  { intros ci z t A1 A2 A3. exists (up N ci D). split; [now apply power_up|]. rewrite A3. now apply gh_commits. }
  split; [now apply KW|]. split; [now apply KW|]. split; [now apply KW|]. clear KW.
  intros x r x0 x1 x2 r0 r1 r2 B0 B1 B2 HT HD Cx Ez0 Ez1 Ez2 Et0 Et1 Et2 alpha beta.
  rewrite Ez0, Et0 in K0. rewrite Ez1, Et1 in K1. rewrite Ez2, Et2 in K2.
  apply (root_commit pp c0 D x0 r0 Hpp (conj Hc0 B0) U0 HT) in K0.
  apply (root_commit pp c1 D x1 r1 Hpp (conj Hc1 B1) U1 HT) in K1.
  apply (root_commit pp c2 D x2 r2 Hpp (conj Hc2 B2) U2 HT) in K2. fold N G H in K0, K1, K2.
  apply (commits_gh pp) in Cx; [|assumption]. fold N G H in Cx.
  apply power_up in P0, P1, P2, PH, P0', P1', P2', PH'; try assumption. subst w0 w1 w2 h w0' w1' w2' h'.
  rewrite <- (Z.mod_mod (_ * _ * _ * up N H T)) in FL by (clear -P; lia).
  assert (SW : forall za zb zc T, (up N c0 za * up N c1 zb * up N c2 zc * up N H T) mod N
     = gh N G H (x0 * za + x1 * zb + x2 * zc) (r0 * za + r1 * zb + r2 * zc + T)).
  { intros za zb zc T0. rewrite K0, K1, K2, !gh_up by assumption. rewrite (gh_H N G H) by assumption.
    rewrite <- mul_mod_idem_l, <- (mul_mod_idem_l (_ * _) (gh N G H (x2 * zc) _)). rewrite !gh_mul_mod by assumption. f_equal; ring. }
  assert (SL : forall k, 0 <= k -> (d * c ^ (4 * k) * G ^ k) mod N = (d * gh N G H (x * (4 * k) + k) (r * (4 * k))) mod N).
  { intros k Hk. rewrite <- Z.mul_assoc, <- (mul_mod_idem_r d). f_equal. f_equal.
    rewrite <- mul_mod_idem_l, <- mul_mod_idem_r, <- !up_nonneg by (assumption || (clear -Hk; lia)).
    rewrite Cx, gh_up, (gh_G N G H), gh_mul_mod by assumption. f_equal; ring. }
  rewrite Z.mod_mod in FL by (clear -P; lia). rewrite SW, SL in FL by assumption. rewrite SW, SL in FL' by assumption.
  (* divide *)
  assert (DV : forall a b a' b' f g f' g', (d * gh N G H a b) mod N = gh N G H f g -> (d * gh N G H a' b') mod N = gh N G H f' g' ->
     gh N G H (a - a' - (f - f')) (b - b' - (g - g')) = 1 mod N).
  { intros a b a' b' f g f' g' X X'.
    assert (Y : (gh N G H f g * gh N G H a' b') mod N = (gh N G H f' g' * gh N G H a b) mod N).
    { rewrite <- X, <- X', !mul_mod_idem_l. f_equal. ring. }
    rewrite !gh_mul_mod in Y by assumption.
    assert (Y2 : (gh N G H (f + a') (g + b') * gh N G H (- (f + a')) (- (g + b'))) mod N
               = (gh N G H (f' + a) (g' + b) * gh N G H (- (f + a')) (- (g + b'))) mod N) by now rewrite Y.
    rewrite !gh_mul_mod in Y2 by assumption.
    replace (f + a' + - (f + a')) with 0 in Y2 by ring. replace (g + b' + - (g + b')) with 0 in Y2 by ring.
    rewrite <- (gh_G N G H), up_0 in Y2 by assumption. rewrite Y2. f_equal; ring. }
  pose proof (DV _ _ _ _ _ _ _ _ FL FL') as REL.
  assert (EQ : commits_to N G H alpha beta (1 mod N)).
  { apply (commits_gh pp); [assumption|]. rewrite <- REL. fold N G H. unfold alpha, beta. apply (f_equal2 (gh N G H)).
    - replace z0 with (z0' + D * x0) by (clear -Ez0; lia). replace z1 with (z1' + D * x1) by (clear -Ez1; lia).
      replace z2 with (z2' + D * x2) by (clear -Ez2; lia). unfold D. ring.
    - replace z0 with (z0' + D * x0) by (clear -Ez0; lia). replace z1 with (z1' + D * x1) by (clear -Ez1; lia).
      replace z2 with (z2' + D * x2) by (clear -Ez2; lia). unfold D. ring. }
  assert (NZ : x < 0 -> alpha <> 0).
  { intros Hx. unfold alpha. intros Q. apply Z.mul_eq_0_r in Q; [|assumption].
    pose proof (Z.square_nonneg x0). pose proof (Z.square_nonneg x1). pose proof (Z.square_nonneg x2).
    rewrite !Z.pow_2_r in Q. clear -Hx Q H0 H1 H2. lia. }
  split; [exact EQ|]. split; [exact NZ|].
  intros HR. destruct (Z_lt_ge_dec x 0) as [Hx|Hx]; [|clear -Hx; lia]. exfalso. apply (NZ Hx). exact (HR _ EQ).
Qed.

(** an element with a known D-th power and a known opening *)
Lemma relation_gh : forall N G H, 1 < N -> 0 <= G -> coprime G N -> 0 <= H -> coprime H N ->
  forall a b a' b', gh N G H a b = gh N G H a' b' -> gh N G H (a - a') (b - b') = 1 mod N.
Proof.
  intros N G H HN HG HGc HH HHc a b a' b' E.
  assert (Y : (gh N G H a b * gh N G H (- a') (- b')) mod N = (gh N G H a' b' * gh N G H (- a') (- b')) mod N) by now rewrite E.
  rewrite !gh_mul_mod in Y by assumption. replace (a' + - a') with 0 in Y by ring. replace (b' + - b') with 0 in Y by ring.
  rewrite <- (gh_G N G H), up_0 in Y by (assumption || lia). exact Y.
Qed.

Theorem C46_RP_special_sound_partial : forall sha sha' pp a b c c3 cm z4 t4 T z4' t4' T',
  pp_ok pp -> 0 <= c -> coprime c (ppN pp) -> nonneg3 c3 -> units3 (ppN pp) c3 -> same_binding sha sha' (ppN pp) ->
  let N := ppN pp in let G := ppG pp in let H := ppH pp in
  let D := rp_challenge sha pp a b c3 - rp_challenge sha' pp a b c3 in
  fst (RP_Verify sha (NewRPVerifier pp a b)
     {| rp_c := c; rp_commit3 := c3; rp_commit := cm; rp_resp := {| rr_Z4 := z4; rr_T4 := t4; rr_TAU := T |} |}) = Ret true ->
  fst (RP_Verify sha' (NewRPVerifier pp a b)
     {| rp_c := c; rp_commit3 := c3; rp_commit := cm; rp_resp := {| rr_Z4 := z4'; rr_T4 := t4'; rr_TAU := T' |} |}) = Ret true ->
  let '(c1, c2, c3) := c3 in let '(z0, z1, z2, z3) := z4 in let '(t0, t1, t2, t3) := t4 in
  let '(z0', z1', z2', z3') := z4' in let '(t0', t1', t2', t3') := t4' in
  (exists W, is_power N c1 D W /\ commits_to N G H (z1 - z1') (t1 - t1') W) /\
  (exists W, is_power N c2 D W /\ commits_to N G H (z2 - z2') (t2 - t2') W) /\
  (exists W, is_power N c3 D W /\ commits_to N G H (z3 - z3') (t3 - t3') W) /\
  (* when the quotients are integers, roots unique, and c opens to (x, r), then x is between a and
     b, or else one of two exhibited relations between G and H is not trivial *)
  (forall x r x1 x2 x3 r1 r2 r3, c1 < N -> c2 < N -> c3 < N -> no_torsion N D -> D <> 0 ->
     commits_to N G H x r c ->
     z1 - z1' = D * x1 -> z2 - z2' = D * x2 -> z3 - z3' = D * x3 ->
     t1 - t1' = D * r1 -> t2 - t2' = D * r2 -> t3 - t3' = D * r3 ->
     let alpha1 := D * (b - x) - (z0 - z0') in
     let beta1 := - (D * r) - (t0 - t0') in
     let alpha2 := D * (1 - (x1 ^ 2 + x2 ^ 2 + x3 ^ 2)) + 4 * (x - a) * (z0 - z0') in
     let beta2 := T - T' + 4 * r * (z0 - z0') - D * (r1 * x1 + r2 * x2 + r3 * x3) in
     commits_to N G H alpha1 beta1 (1 mod N) /\ commits_to N G H alpha2 beta2 (1 mod N) /\
     (a <= b -> ~ (a <= x <= b) -> alpha1 <> 0 \/ alpha2 <> 0)).
Proof.
  intros sha sha' pp a b c [[c1 c2] c3] cm [[[z0 z1] z2] z3] [[[t0 t1] t2] t3] T [[[z0' z1'] z2'] z3'] [[[t0' t1'] t2'] t3'] T'
    Hpp Hc Hcc Hn3 Hu3 HB N G H D V V'.
  apply (C46_RP_equations sha pp a b c (c1, c2, c3) cm (z0, z1, z2, z3) (t0, t1, t2, t3) T Hpp Hc Hcc Hn3 Hu3) in V.
  apply (C46_RP_equations sha' pp a b c (c1, c2, c3) cm (z0', z1', z2', z3') (t0', t1', t2', t3') T' Hpp Hc Hcc Hn3 Hu3) in V'.
  destruct V as (d0 & d1 & d2 & d3 & d & V & ->). destruct V' as (y0 & y1 & y2 & y3 & y & V' & E).
  set (e := rp_challenge sha pp a b (c1, c2, c3)) in *. set (e' := rp_challenge sha' pp a b (c1, c2, c3)) in *.
  assert (He : 0 <= e) by apply rp_challenge_nonneg. assert (He' : 0 <= e') by apply rp_challenge_nonneg.
  unfold rp_equations in V, V'. fold N G H in V, V'.
  destruct V as (R0 & R1 & R2 & R3 & R4 & c0 & gb & A & ga & Rc0 & Pgb & E0 & RA & Pga & EA & F0 & F1 & F2 & F3 & wa & w1 & w2 & w3 & h & PA & P1 & P2 & P3 & PH & FL).
  destruct V' as (R0' & R1' & R2' & R3' & R4' & c0' & gb' & A' & ga' & Rc0' & Pgb' & E0' & RA' & Pga' & EA' & F0' & F1' & F2' & F3' & wa' & w1' & w2' & w3' & h' & PA' & P1' & P2' & P3' & PH' & FL').
  assert (EQ5 : d0 = y0 /\ d1 = y1 /\ d2 = y2 /\ d3 = y3 /\ d = y).
  { destruct HB as (B1 & B2). fold N in B1, B2.
    rewrite (proj1 (B1 y0 R0')), (proj1 (B1 y1 R1')), (proj1 (B1 y2 R2')), (proj1 (B1 y3 R3')), (proj1 (B1 y R4')) in E.
    assert (L : forall x y, 0 <= x < N -> 0 <= y < N -> String.length (sha (big_bytes x)) = String.length (sha (big_bytes y))).
    { intros x1 x2 Hx Hy. now rewrite (proj2 (B1 x1 Hx)), (proj2 (B1 x2 Hy)). }
    apply append_split in E; [|now apply L]. destruct E as [X0 E]. apply append_split in E; [|now apply L]. destruct E as [X1 E].
    apply append_split in E; [|now apply L]. destruct E as [X2 E]. apply append_split in E; [|now apply L]. destruct E as [X3 X4]. auto 12. }
  destruct EQ5 as (<- & <- & <- & <- & <-). clear E R0 R1 R2 R3 R0' R1' R2' R3' R4'.
  destruct Hn3 as (Hc1 & Hc2 & Hc3). destruct Hu3 as (U1 & U2 & U3).
  assert (Hpp' := Hpp). destruct Hpp' as (HN & HG & HGc & HH & HHc). fold N G H in HN, HG, HGc, HH, HHc, U1, U2, U3, Hcc.
  assert (P : 0 < N) by (clear -HN; lia).
  apply power_up in Pgb, Pga, Pgb', Pga'; try assumption. subst gb ga gb' ga'.
  (* c0 and A are determined *)
  assert (Ec0 : c0' = c0).
  { rewrite <- (Z.mod_small c0' N), <- (Z.mod_small c0 N) by assumption. apply (unit_cancel c); [assumption|assumption|]. congruence. }
  assert (EAA : A' = A).
  { rewrite <- (Z.mod_small A' N), <- (Z.mod_small A N) by assumption. apply (unit_cancel (up N G a)); [assumption|now apply up_unit|]. congruence. }
  subst c0' A'.
  assert (U0 : coprime c0 N).
  { pose proof (up_unit N G b P HG HGc) as U. rewrite <- E0 in U. apply coprime_mod_inv in U; [|assumption].
    unfold coprime in *. apply Znumtheory.Zgcd_1_rel_prime in U. apply Znumtheory.Zgcd_1_rel_prime.
    apply Znumtheory.rel_prime_div with (1 := U). apply Z.divide_factor_l. }
  assert (UA : coprime A N).
  { assert (U : coprime (c mod N) N) by now apply coprime_mod. rewrite <- EA in U. apply coprime_mod_inv in U; [|assumption].
    unfold coprime in *. apply Znumtheory.Zgcd_1_rel_prime in U. apply Znumtheory.Zgcd_1_rel_prime.
    apply Znumtheory.rel_prime_div with (1 := U). apply Z.divide_factor_l. }
  assert (Hc0 : 0 <= c0) by (clear -Rc0; lia). assert (HA : 0 <= A) by (clear -RA; lia).
  pose proof (fork_commit pp c0 e e' d0 z0 t0 z0' t0' Hpp Hc0 U0 He He' F0 F0') as K0.
  pose proof (fork_commit pp c1 e e' d1 z1 t1 z1' t1' Hpp Hc1 U1 He He' F1 F1') as K1.
  pose proof (fork_commit pp c2 e e' d2 z2 t2 z2' t2' Hpp Hc2 U2 He He' F2 F2') as K2.
  pose proof (fork_commit pp c3 e e' d3 z3 t3 z3' t3' Hpp Hc3 U3 He He' F3 F3') as K3.
  clear F0 F0' F1 F1' F2 F2' F3 F3'. fold N G H in K0, K1, K2, K3. fold D in K0, K1, K2, K3.
  assert (KW : forall ci z t, 0 <= ci -> coprime ci N -> up N ci D = gh N G H z t ->
     exists W, is_power N ci D W /\ commits_to N G H z t W).
  { intros ci z t A1 A2 A3. exists (up N ci D). split; [now apply power_up|]. rewrite A3. now apply gh_commits. }
  split; [now apply KW|]. split; [now apply KW|]. split; [now apply KW|]. clear KW.
  intros x r x1 x2 x3 r1 r2 r3 B1 B2 B3 HT HD Cx Ez1 Ez2 Ez3 Et1 Et2 Et3 alpha1 beta1 alpha2 beta2.
  rewrite Ez1, Et1 in K1. rewrite Ez2, Et2 in K2. rewrite Ez3, Et3 in K3.
  apply (root_commit pp c1 D x1 r1 Hpp (conj Hc1 B1) U1 HT) in K1.
  apply (root_commit pp c2 D x2 r2 Hpp (conj Hc2 B2) U2 HT) in K2.
  apply (root_commit pp c3 D x3 r3 Hpp (conj Hc3 B3) U3 HT) in K3. fold N G H in K1, K2, K3.
  apply (commits_gh pp) in Cx; [|assumption]. fold N G H in Cx.
  assert (Kc0 : c0 = gh N G H (b - x) (- r)).
  { rewrite <- (Z.mod_small c0 N) by assumption. rewrite <- (Z.mod_small (gh N G H (b - x) (- r)) N) by (apply gh_range; assumption).
    apply (unit_cancel c); [assumption|assumption|]. rewrite E0, Cx, gh_mul_mod, (gh_G N G H) by assumption. f_equal; ring. }
  assert (KA : A = gh N G H (x - a) r).
  { rewrite <- (Z.mod_small A N) by assumption. rewrite <- (Z.mod_small (gh N G H (x - a) r) N) by (apply gh_range; assumption).
    apply (unit_cancel (up N G a)); [assumption|now apply up_unit|]. rewrite EA, Cx, (gh_G N G H), gh_mul_mod by assumption.
    rewrite Z.mod_small by (apply gh_range; assumption). f_equal; ring. }
  assert (Q1 : commits_to N G H alpha1 beta1 (1 mod N)).
  { apply (commits_gh pp); [assumption|]. fold N G H. rewrite Kc0, gh_up in K0 by assumption.
    apply (relation_gh N G H) in K0; try assumption. rewrite <- K0. unfold alpha1, beta1. apply (f_equal2 (gh N G H)); ring. }
  apply power_up in PA, P1, P2, P3, PH, PA', P1', P2', P3', PH'; try assumption. subst wa w1 w2 w3 h wa' w1' w2' w3' h'.
  assert (SW : forall za zb zc, (d * up N c1 za * up N c2 zb * up N c3 zc) mod N
     = (d * gh N G H (x1 * za + x2 * zb + x3 * zc) (r1 * za + r2 * zb + r3 * zc)) mod N).
  { intros za zb zc. rewrite <- !Z.mul_assoc, <- (mul_mod_idem_r d). f_equal. f_equal. rewrite K1, K2, K3, !gh_up by assumption.
    rewrite <- (mul_mod_idem_r (gh N G H (x1 * za) _)), !gh_mul_mod by assumption. f_equal; ring. }
  assert (SL : forall k zz TT, 0 <= k -> (up N H TT * G ^ k * up N A (4 * zz)) mod N
      = gh N G H (k + (x - a) * (4 * zz)) (TT + r * (4 * zz))).
  { intros k zz TT Hk. rewrite <- mul_mod_idem_l, <- (mul_mod_idem_r (up N H TT)), <- up_nonneg by assumption.
    rewrite KA, gh_up, (gh_G N G H), (gh_H N G H), !gh_mul_mod by assumption. f_equal; ring. }
  rewrite SW, SL in FL by assumption. rewrite SW, SL in FL' by assumption.
  assert (Q2 : commits_to N G H alpha2 beta2 (1 mod N)).
  { apply (commits_gh pp); [assumption|]. fold N G H.
    match type of FL with (d * gh N G H ?p ?q) mod N = gh N G H ?f ?g => 
      match type of FL' with (d * gh N G H ?p' ?q') mod N = gh N G H ?f' ?g' =>
        assert (Y : (gh N G H f g * gh N G H p' q') mod N = (gh N G H f' g' * gh N G H p q) mod N) end end.
    { rewrite <- FL, <- FL', !mul_mod_idem_l. f_equal. ring. }
    rewrite !gh_mul_mod in Y by assumption. apply (relation_gh N G H) in Y; try assumption. rewrite <- Y. unfold alpha2, beta2.
    replace z1 with (z1' + D * x1) by (clear -Ez1; lia). replace z2 with (z2' + D * x2) by (clear -Ez2; lia).
    replace z3 with (z3' + D * x3) by (clear -Ez3; lia). apply (f_equal2 (gh N G H)); unfold D; ring. }
  split; [exact Q1|]. split; [exact Q2|]. intros Hab Hx.
  destruct (Z.eq_dec alpha1 0) as [A1|A1]; [|now left]. right. unfold alpha1 in A1. unfold alpha2.
  replace (z0 - z0') with (D * (b - x)) by (clear -A1; lia). intros Q.
  assert (Q' : 1 - (x1 ^ 2 + x2 ^ 2 + x3 ^ 2) + 4 * ((x - a) * (b - x)) = 0).
  { apply (Z.mul_cancel_l _ _ D HD). rewrite Z.mul_0_r, <- Q. ring. }
  rewrite !Z.pow_2_r in Q'. pose proof (Z.square_nonneg x1). pose proof (Z.square_nonneg x2). pose proof (Z.square_nonneg x3).
  assert ((x - a) * (b - x) < 0); [|clear -Q' H0 H1 H2 H3; lia].
  destruct (Z_lt_ge_dec x a) as [C|C]; [apply Z.mul_neg_pos|apply Z.mul_pos_neg]; clear -C Hx Hab; lia.
Qed.

(** an example modulo 77: two hash functions that differ on the challenge only (8 and 1) *)
Definition zeros (n : nat) (rest : string) : string := Nat.iter n (String Ascii.zero) rest.
Definition sha_with (e : Ascii.ascii) (s : string) : string :=
  match s with
  | String a EmptyString => zeros 31 (String a EmptyString)
  | EmptyString => zeros 32 EmptyString
  | _ => zeros 31 (String e EmptyString)
  end.
Lemma sha_with_binding : forall e e', same_binding (sha_with e) (sha_with e') 77.
Proof.
  intros e e'. split.
  - intros x Hx. assert (B : exists b, big_bytes x = b /\ (b = EmptyString \/ exists a, b = String a EmptyString)).
    { eexists. split; [reflexivity|].
      assert (C : forallb (fun x => match big_bytes (Z.of_nat x) with EmptyString => true | String _ EmptyString => true | _ => false end) (seq 0 77) = true)
        by (vm_compute; reflexivity).
      rewrite forallb_forall in C. specialize (C (Z.to_nat x)). rewrite Z2Nat.id in C by lia.
      assert (I : In (Z.to_nat x) (seq 0 77)) by (apply in_seq; lia). specialize (C I).
      destruct (big_bytes x) as [|a [|b s]]; [now left|right; eauto|discriminate]. }
    destruct B as (b & -> & [->|(a & ->)]); split; reflexivity.
  - intros x y Hx Hy E.
    assert (C : forallb (fun x => Z.eqb (set_bytes (sha_with e (big_bytes (Z.of_nat x)))) (Z.of_nat x)) (seq 0 77) = true)
      by (vm_compute; reflexivity).
    rewrite forallb_forall in C.
    assert (K : forall z, 0 <= z < 77 -> set_bytes (sha_with e (big_bytes z)) = z).
    { intros z Hz. specialize (C (Z.to_nat z)). rewrite Z2Nat.id in C by lia. apply Z.eqb_eq, C, in_seq. lia. }
    rewrite <- (K x Hx), <- (K y Hy). now rewrite E.
Qed.
Lemma no_torsion_77 : no_torsion 77 7.
Proof.
  intros y Hy (_ & H & _). specialize (H ltac:(lia)).
  assert (C : forallb (fun y => negb (Z.eqb (Z.of_nat y ^ 7 mod 77) 1) || Z.eqb (Z.of_nat y) 1) (seq 0 77) = true) by (vm_compute; reflexivity).
  rewrite forallb_forall in C. specialize (C (Z.to_nat y)). rewrite Z2Nat.id in C by lia.
  rewrite <- H in C. change (1 mod 77 =? 1) with true in C. cbn [negb orb] in C. apply Z.eqb_eq, C, in_seq. lia.
Qed.
Example C44_special_case :
  let pp := {| ppN := 77; ppG := 4; ppH := 9 |} in
  let k := {| ac_r3 := (1, 2, 3); ac_m3 := (4, 5, 6); ac_s3 := (7, 8, 9); ac_s := 10 |} in
  let s1 := sha_with (Ascii.ascii_of_nat 8) in let s2 := sha_with (Ascii.ascii_of_nat 1) in
  same_binding s1 s2 77 /\ no_torsion 77 (8 - 1) /\
  exists c pf pf', AoP_Prove s1 toy_squares pp 5 1 k = Ret (c, pf) /\ AoP_Prove s2 toy_squares pp 5 1 k = Ret (c, pf') /\
    ap_commit3 pf = ap_commit3 pf' /\ ap_commitment pf = ap_commitment pf' /\ units3 77 (ap_commit3 pf) /\ nonneg3 (ap_commit3 pf) /\
    aop_challenge s1 pp (ap_commit3 pf) = 8 /\ aop_challenge s2 pp (ap_commit3 pf) = 1 /\
    fst (AoP_Verify s1 (NewZKAoPVerifier pp c) pf 0) = Ret true /\ fst (AoP_Verify s2 (NewZKAoPVerifier pp c) pf' 0) = Ret true.
Proof.
  cbv zeta. split; [apply sha_with_binding|]. split; [exact no_torsion_77|].
  eexists _, _, _. split; [vm_compute; reflexivity|]. split; [vm_compute; reflexivity|].
  repeat split; vm_compute; try reflexivity; discriminate.
Qed.
Example C46_special_case :
  let pp := {| ppN := 77; ppG := 4; ppH := 9 |} in
  let k := {| rc_r3 := (1, 2, 3); rc_m4 := (4, 5, 6, 7); rc_s4 := (7, 8, 9, 10); rc_sigma := 11 |} in
  let s1 := sha_with (Ascii.ascii_of_nat 8) in let s2 := sha_with (Ascii.ascii_of_nat 1) in
  same_binding s1 s2 77 /\ no_torsion 77 (8 - 1) /\
  exists pf pf', RP_Prove s1 toy_squares pp 5 3 5 4 k = Ret pf /\ RP_Prove s2 toy_squares pp 5 3 5 4 k = Ret pf' /\
    rp_c pf = rp_c pf' /\ rp_commit3 pf = rp_commit3 pf' /\ rp_commit pf = rp_commit pf' /\
    units3 77 (rp_commit3 pf) /\ nonneg3 (rp_commit3 pf) /\ coprime (rp_c pf) 77 /\
    rp_challenge s1 pp 3 5 (rp_commit3 pf) = 8 /\ rp_challenge s2 pp 3 5 (rp_commit3 pf) = 1 /\
    fst (RP_Verify s1 (NewRPVerifier pp 3 5) pf) = Ret true /\ fst (RP_Verify s2 (NewRPVerifier pp 3 5) pf') = Ret true.
Proof.
  cbv zeta. split; [apply sha_with_binding|]. split; [exact no_torsion_77|].
  eexists _, _. split; [vm_compute; reflexivity|]. split; [vm_compute; reflexivity|].
  repeat split; vm_compute; try reflexivity; discriminate.
Qed.

Print Assumptions C38_ZKPoKE_membership_partial.
Print Assumptions C38_ZKPoKE_extract.
Print Assumptions C44_AoP_equations.
Print Assumptions C44_AoP_special_sound_partial.
Print Assumptions C46_RP_equations.
Print Assumptions C46_RP_special_sound_partial.
