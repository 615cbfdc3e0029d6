(** Proofs about proof/zkaop.go and proof/range_proof.go. *)
From Coq Require Import ZArith Bool Lia String List.
From Verif Require Import GoBig GoBigFacts StrFacts FSModel PokeModel PokeProofs SquaresModel RangeModel.
Import ListNotations.
Open Scope Z_scope.

(** ** the group generated by two units *)
Section GH.
Variables N G H : Z.
Hypothesis HN : 1 < N.
Hypothesis HG : 0 <= G.
Hypothesis HGc : coprime G N.
Hypothesis HH : 0 <= H.
Hypothesis HHc : coprime H N.

Definition gh (a b : Z) : Z := (up N G a * up N H b) mod N.

Lemma N_pos : 0 < N. Proof. clear -HN. lia. Qed.
Lemma gh_range : forall a b, 0 <= gh a b < N.
Proof. intros. apply Z.mod_pos_bound, N_pos. Qed.
Lemma gh_nonneg : forall a b, 0 <= gh a b.
Proof. intros. apply gh_range. Qed.
Lemma gh_unit : forall a b, coprime (gh a b) N.
Proof.
  intros. pose proof N_pos. unfold gh. apply coprime_mod; [assumption|]. apply coprime_mul; now apply up_unit.
Qed.
Lemma gh_mul_mod : forall a b c d, (gh a b * gh c d) mod N = gh (a + c) (b + d).
Proof.
  intros. pose proof N_pos as P. unfold gh. rewrite <- Z.mul_mod by (clear -P; lia).
  rewrite <- (up_add N G a c), <- (up_add N H b d) by assumption. rewrite <- Z.mul_mod by (clear -P; lia). f_equal. ring.
Qed.
Lemma gh_mul : forall a b c d, go_mod (gh a b * gh c d) N = Ret (gh (a + c) (b + d)).
Proof.
  intros. pose proof N_pos as P. rewrite go_mod_ret, Z.abs_eq by (clear -P; lia). now rewrite gh_mul_mod.
Qed.
Lemma gh_mul3 : forall a b c d e f, go_mod (gh a b * gh c d * gh e f) N = Ret (gh (a + c + e) (b + d + f)).
Proof.
  intros. pose proof N_pos as P. rewrite go_mod_ret, Z.abs_eq by (clear -P; lia). f_equal.
  now rewrite <- mul_mod_idem_l, gh_mul_mod, gh_mul_mod.
Qed.
Lemma gh_G : forall k, up N G k = gh k 0.
Proof.
  intros. pose proof N_pos as P. unfold gh. rewrite up_0, mul_mod_idem_r, Z.mul_1_r by assumption.
  symmetry. apply Z.mod_small. now apply up_range.
Qed.
Lemma gh_H : forall k, up N H k = gh 0 k.
Proof.
  intros. pose proof N_pos as P. unfold gh. rewrite up_0, mul_mod_idem_l, Z.mul_1_l by assumption.
  symmetry. apply Z.mod_small. now apply up_range.
Qed.
Lemma gh_up : forall a b k, up N (gh a b) k = gh (a * k) (b * k).
Proof.
  intros. pose proof N_pos as P. unfold gh.
  rewrite up_mul_base; try assumption; try (now apply up_unit); try (now apply up_range).
  now rewrite !up_mul by assumption.
Qed.
Lemma exp_G : forall k, big_exp G k N = Some (gh k 0).
Proof. intros. rewrite <- gh_G. apply big_exp_up; auto using N_pos. Qed.
Lemma exp_H : forall k, big_exp H k N = Some (gh 0 k).
Proof. intros. rewrite <- gh_H. apply big_exp_up; auto using N_pos. Qed.
Lemma exp_gh : forall a b k, big_exp (gh a b) k N = Some (gh (a * k) (b * k)).
Proof. intros. rewrite <- gh_up. apply big_exp_up; auto using N_pos, gh_nonneg, gh_unit. Qed.
Lemma inv_gh : forall a b, mod_inverse (gh a b) N = Some (gh (- a) (- b)).
Proof.
  intros. rewrite mod_inverse_up by (auto using gh_nonneg, gh_unit). rewrite gh_up. do 2 f_equal; ring.
Qed.
Lemma gh_one_mul : forall a b, go_mod (1 * gh a b) N = Ret (gh a b).
Proof.
  intros. rewrite go_mod_ret, Z.abs_eq by (clear -HN; lia). rewrite Z.mul_1_l, Z.mod_small by apply gh_range. reflexivity.
Qed.

Lemma commit2_gh : forall x r, commit2 G x H r N = Ret (gh x r).
Proof.
  intros. unfold commit2. rewrite exp_G, exp_H. cbn [deref bind]. rewrite gh_mul. f_equal. f_equal; ring.
Qed.
Lemma mul_exp_gh : forall a b c d k, mul_exp N (gh a b) (gh c d) k = Ret (gh (a + c * k) (b + d * k)).
Proof. intros. unfold mul_exp. rewrite exp_gh. cbn [deref bind]. apply gh_mul. Qed.
Lemma mul_exp_1 : forall c d k, mul_exp N 1 (gh c d) k = Ret (gh (c * k) (d * k)).
Proof. intros. unfold mul_exp. rewrite exp_gh. cbn [deref bind]. apply gh_one_mul. Qed.
Lemma mul_exp_G : forall a b k, mul_exp N (gh a b) G k = Ret (gh (a + k) b).
Proof. intros. unfold mul_exp. rewrite exp_G. cbn [deref bind]. rewrite gh_mul. do 2 f_equal; ring. Qed.
Lemma mul_exp_H : forall a b k, mul_exp N (gh a b) H k = Ret (gh a (b + k)).
Proof. intros. unfold mul_exp. rewrite exp_H. cbn [deref bind]. rewrite gh_mul. do 2 f_equal; ring. Qed.
End GH.

Definition pp_ok (pp : PublicParameters) : Prop :=
  1 < ppN pp /\ 0 <= ppG pp /\ coprime (ppG pp) (ppN pp) /\ 0 <= ppH pp /\ coprime (ppH pp) (ppN pp).

Ltac ghs N G H :=
  repeat (progress (cbn [bind deref each3 each4 fold3]) ||
    match goal with
    | |- context [commit2 G _ H _ N] => rewrite (commit2_gh N G H) by assumption
    | |- context [mul_exp N 1 (gh N G H _ _) _] => rewrite (mul_exp_1 N G H) by assumption
    | |- context [mul_exp N (gh N G H _ _) (gh N G H _ _) _] => rewrite (mul_exp_gh N G H) by assumption
    | |- context [mul_exp N (gh N G H _ _) G _] => rewrite (mul_exp_G N G H) by assumption
    | |- context [mul_exp N (gh N G H _ _) H _] => rewrite (mul_exp_H N G H) by assumption
    | |- context [big_exp (gh N G H _ _) _ N] => rewrite (exp_gh N G H) by assumption
    | |- context [big_exp G _ N] => rewrite (exp_G N G H) by assumption
    | |- context [big_exp H _ N] => rewrite (exp_H N G H) by assumption
    | |- context [go_mod (gh N G H _ _ * gh N G H _ _ * gh N G H _ _) N] => rewrite (gh_mul3 N G H) by assumption
    | |- context [go_mod (gh N G H _ _ * gh N G H _ _) N] => rewrite (gh_mul N G H) by assumption
    end).
Ltac ghs_in N G H E :=
  repeat (progress (cbn [bind deref each3 each4 fold3] in E) ||
    match type of E with
    | context [commit2 G _ H _ N] => rewrite (commit2_gh N G H) in E by assumption
    | context [mul_exp N 1 (gh N G H _ _) _] => rewrite (mul_exp_1 N G H) in E by assumption
    | context [mul_exp N (gh N G H _ _) (gh N G H _ _) _] => rewrite (mul_exp_gh N G H) in E by assumption
    | context [mul_exp N (gh N G H _ _) G _] => rewrite (mul_exp_G N G H) in E by assumption
    | context [mul_exp N (gh N G H _ _) H _] => rewrite (mul_exp_H N G H) in E by assumption
    | context [big_exp (gh N G H _ _) _ N] => rewrite (exp_gh N G H) in E by assumption
    | context [big_exp G _ N] => rewrite (exp_G N G H) in E by assumption
    | context [big_exp H _ N] => rewrite (exp_H N G H) in E by assumption
    | context [go_mod (gh N G H _ _ * gh N G H _ _ * gh N G H _ _) N] => rewrite (gh_mul3 N G H) in E by assumption
    | context [go_mod (gh N G H _ _ * gh N G H _ _) N] => rewrite (gh_mul N G H) in E by assumption
    end).

(** equality of the hash concatenations, hash by hash, exponent by exponent *)
Ltac hash_parts :=
  cbn [aop_commitment rp_commitment written fold_right];
  repeat match goal with |- String.append _ _ = String.append _ _ => apply (f_equal2 String.append) end;
  try reflexivity;
  match goal with |- ?sha (big_bytes (gh ?N ?G ?H _ _)) = _ =>
    apply (f_equal sha), (f_equal big_bytes), (f_equal2 (gh N G H)) end.

Section Range.
Variable sha : string -> string.
Variable ThreeSquares : Z -> outcome Int3.

Lemma AoP_complete : forall pp r x k C pf,
  pp_ok pp ->
  (forall a b c, ThreeSquares (4 * x + 1) = Ret (a, b, c) -> a * a + b * b + c * c = 4 * x + 1) ->
  AoP_Prove sha ThreeSquares pp r x k = Ret (C, pf) ->
  forall junk, fst (AoP_Verify sha (NewZKAoPVerifier pp C) pf junk) = Ret true.
Proof.
  intros pp r x [[[r0 r1] r2] [[m0 m1] m2] [[s0 s1] s2] s] C pf (HN & HG & HGc & HH & HHc) Hts E junk.
  unfold AoP_Prove, calC in E. cbn [ac_r3 ac_m3 ac_s3 ac_s] in E.
  set (N := ppN pp) in *. set (G := ppG pp) in *. set (H := ppH pp) in *.
  rewrite (Z.shiftl_mul_pow2 x 2), (Z.shiftl_mul_pow2 r 2), (Z.mul_comm x) in E by (clear; lia). change (2 ^ 2) with 4 in E.
  ghs_in N G H E. destruct (ThreeSquares (4 * x + 1)) as [[[x0 x1] x2]| |]; try discriminate.
  specialize (Hts x0 x1 x2 eq_refl). unfold commitFromTS in E. fold N G H in E. cbn [bind] in E. ghs_in N G H E.
  remember (aop_challenge sha pp (gh N G H x0 r0, gh N G H x1 r1, gh N G H x2 r2)) as e eqn:He in E.
  injection E as <- <-.
  unfold AoP_Verify, NewZKAoPVerifier. cbn [fst av_c3 av_pp av_c av_commitment ap_commit3 ap_commitment ap_response deref bind].
  unfold AoP_VerifyResponse. cbn [ar_Z3 ar_T3 ar_T]. fold N G H.
  rewrite <- He. clear He.
  rewrite (Z.shiftl_mul_pow2 (- e) 2) by (clear; lia). change (2 ^ 2) with 4.
  ghs N G H.
  assert (EJ : forall T, exp_recv junk H T N = gh N G H 0 T).
  { intros T. unfold exp_recv. rewrite (exp_H N G H) by assumption. reflexivity. }
  rewrite EJ. ghs N G H.
  match goal with |- Ret ((?A =? ?B)%string) = _ => enough (X : A = B) by (rewrite X, String.eqb_refl; reflexivity) end.
  assert (Hx : 4 * x = x0 * x0 + x1 * x1 + x2 * x2 - 1) by (clear -Hts; lia).
  hash_parts; ring [Hx].
Qed.

Lemma RP_complete : forall pp r a b x k pf,
  pp_ok pp ->
  (let '(m0, _, _, _) := rc_m4 k in 0 <= m0) ->
  (forall t u v, ThreeSquares (4 * ((b - x) * (x - a)) + 1) = Ret (t, u, v) ->
     t * t + u * u + v * v = 4 * ((b - x) * (x - a)) + 1) ->
  RP_Prove sha ThreeSquares pp r a b x k = Ret pf ->
  fst (RP_Verify sha (NewRPVerifier pp a b) pf) = Ret true.
Proof.
  intros pp r a b x [[[r1 r2] r3] [[[m0 m1] m2] m3] [[[s0 s1] s2] s3] sigma] pf (HN & HG & HGc & HH & HHc) Hm Hts E.
  unfold RP_Prove, calC, calCa in E. cbn [rc_r3 rc_m4 rc_s4 rc_sigma] in *.
  set (N := ppN pp) in *. set (G := ppG pp) in *. set (H := ppH pp) in *.
  rewrite (Z.shiftl_mul_pow2 ((b - x) * (x - a)) 2), (Z.mul_comm ((b - x) * (x - a))) in E by (clear; lia). change (2 ^ 2) with 4 in E.
  ghs_in N G H E.
  assert (ECa : forall y z k, big_exp (gh N G H y z * gh N G H k 0) 4 N = Some (gh N G H ((y + k) * 4) (z * 4))).
  { intros y z k. rewrite <- (Z.add_0_r z) at 2. rewrite <- (exp_gh N G H) by assumption.
    rewrite <- (gh_mul_mod N G H) by assumption. rewrite !big_exp_nonneg by (clear -HN; lia).
    now rewrite pow_mod_idem by (clear; lia). }
  rewrite ECa in E. cbn [bind deref] in E.
  destruct (ThreeSquares (4 * ((b - x) * (x - a)) + 1)) as [[[x1 x2] x3]| |]; try discriminate.
  specialize (Hts x1 x2 x3 eq_refl). unfold commitFromTS, secondPartH in E. fold N G H in E. cbn [bind] in E. ghs_in N G H E.
  assert (EM : exp_recv 0 (gh N G H ((x + - a) * 4) (r * 4)) m0 N = gh N G H ((x + - a) * 4 * m0) (r * 4 * m0)).
  { unfold exp_recv. rewrite (exp_gh N G H) by assumption. reflexivity. }
  rewrite EM in E. ghs_in N G H E.
  remember (rp_challenge sha pp a b (gh N G H x1 r1, gh N G H x2 r2, gh N G H x3 r3)) as e eqn:He in E.
  rewrite (Z.shiftl_mul_pow2 _ 2) in E by (clear; lia). change (2 ^ 2) with 4 in E.
  injection E as <-.
  unfold RP_Verify, NewRPVerifier. cbn [rv_pp rv_a rv_b rp_c rp_commit3 rp_commit rp_resp]. fold N G H.
  rewrite (inv_gh N G H) by assumption. ghs N G H.
  assert (EA : exp_recv (- a) G (- a) N = gh N G H (- a) 0).
  { unfold exp_recv. rewrite (exp_G N G H) by assumption. reflexivity. }
  rewrite EA. ghs N G H.
  assert (E4 : forall y z, exp_recv 0 (gh N G H y z) 4 N = gh N G H (y * 4) (z * 4)).
  { intros y z. unfold exp_recv. rewrite (exp_gh N G H) by assumption. reflexivity. }
  rewrite E4. cbn [fst rv_c0 rv_c3 rv_ca rv_commitment rv_a rv_b set_rest set_c0].
  unfold RP_VerifyResponse. cbn [rr_Z4 rr_T4 rr_TAU]. fold N G H.
  rewrite <- He. clear He.
  ghs N G H.
  match goal with |- Ret ((?A =? ?B)%string) = _ => enough (X : A = B) by (rewrite X, String.eqb_refl; reflexivity) end.
  assert (Hx : x1 * x1 = 4 * ((b - x) * (x - a)) + 1 - x2 * x2 - x3 * x3) by (clear -Hts; lia).
  hash_parts; ring [Hx].
Qed.

(** ** the provers return whenever the search does *)
Lemma AoP_Prove_returns : forall pp r x k v, pp_ok pp -> ThreeSquares (4 * x + 1) = Ret v ->
  exists pf, AoP_Prove sha ThreeSquares pp r x k = Ret (gh (ppN pp) (ppG pp) (ppH pp) x r, pf).
Proof.
  intros pp r x [[[r0 r1] r2] [[m0 m1] m2] [[s0 s1] s2] s] [[x0 x1] x2] (HN & HG & HGc & HH & HHc) Hts.
  unfold AoP_Prove, calC. cbn [ac_r3 ac_m3 ac_s3 ac_s].
  set (N := ppN pp) in *. set (G := ppG pp) in *. set (H := ppH pp) in *.
  rewrite (Z.shiftl_mul_pow2 x 2), (Z.mul_comm x) by (clear; lia). change (2 ^ 2) with 4. rewrite Hts.
  unfold commitFromTS. fold N G H. ghs N G H. eexists. reflexivity.
Qed.
Lemma RP_Prove_returns : forall pp r a b x k v, pp_ok pp -> ThreeSquares (4 * ((b - x) * (x - a)) + 1) = Ret v ->
  exists pf, RP_Prove sha ThreeSquares pp r a b x k = Ret pf /\ rp_c pf = gh (ppN pp) (ppG pp) (ppH pp) x r.
Proof.
  intros pp r a b x [[[r1 r2] r3] [[[m0 m1] m2] m3] [[[s0 s1] s2] s3] sigma] [[x1 x2] x3] (HN & HG & HGc & HH & HHc) Hts.
  unfold RP_Prove, calC, calCa. cbn [rc_r3 rc_m4 rc_s4 rc_sigma] in *.
  set (N := ppN pp) in *. set (G := ppG pp) in *. set (H := ppH pp) in *.
  rewrite (Z.shiftl_mul_pow2 ((b - x) * (x - a)) 2), (Z.mul_comm ((b - x) * (x - a))) by (clear; lia). change (2 ^ 2) with 4.
  rewrite Hts. ghs N G H.
  assert (ECa : forall y z k, big_exp (gh N G H y z * gh N G H k 0) 4 N = Some (gh N G H ((y + k) * 4) (z * 4))).
  { intros y z k. rewrite <- (Z.add_0_r z) at 2. rewrite <- (exp_gh N G H) by assumption.
    rewrite <- (gh_mul_mod N G H) by assumption. rewrite !big_exp_nonneg by (clear -HN; lia).
    now rewrite pow_mod_idem by (clear; lia). }
  rewrite ECa. unfold commitFromTS, secondPartH. fold N G H. ghs N G H.
  assert (EM : forall y z, exp_recv 0 (gh N G H y z) m0 N = gh N G H (y * m0) (z * m0)).
  { intros y z. unfold exp_recv. rewrite (exp_gh N G H) by assumption. reflexivity. }
  rewrite EM. ghs N G H. eexists. split; reflexivity.
Qed.

End Range.

Section Verifiers.
Variable sha : string -> string.
(** ** any response can be completed to an accepted proof *)
Lemma AoP_VerifyResponse_forge : forall pp c c3 resp junk b cm,
  AoP_VerifyResponse sha pp c c3 cm resp junk = Ret b ->
  exists commitment, AoP_VerifyResponse sha pp c c3 commitment resp junk = Ret true.
Proof.
  intros pp c [[c0 c1] c2] [[[z0 z1] z2] [[t0 t1] t2] T] junk b cm E. unfold AoP_VerifyResponse in *. cbn [ar_Z3 ar_T3 ar_T] in *.
  repeat match type of E with
  | (do _ <- ?X; _) = _ => destruct X as [?| |] eqn:?; cbn [bind] in E; try discriminate E
  end.
  eexists. clear E. cbn [bind].
  repeat match goal with Hq : ?X = Ret _ |- context [?X] => rewrite Hq; cbn [bind] end.
  f_equal. apply String.eqb_refl.
Qed.
Lemma RP_VerifyResponse_forge : forall pp a b ca c4 resp v cm,
  RP_VerifyResponse sha pp a b ca c4 cm resp = Ret v ->
  exists commitment, RP_VerifyResponse sha pp a b ca c4 commitment resp = Ret true.
Proof.
  intros pp a b ca [[[c0 c1] c2] c3] [[[[z0 z1] z2] z3] [[[t0 t1] t2] t3] T] v cm E.
  unfold RP_VerifyResponse in *. cbn [rr_Z4 rr_T4 rr_TAU] in *.
  repeat match type of E with
  | (do _ <- ?X; _) = _ => destruct X as [?| |] eqn:?; cbn [bind] in E; try discriminate E
  end.
  eexists. clear E. cbn [bind].
  repeat match goal with Hq : ?X = Ret _ |- context [?X] => rewrite Hq; cbn [bind] end.
  f_equal. apply String.eqb_refl.
Qed.

(** ** when the verifiers answer *)
Definition unit_of (N c : Z) : Prop := coprime c N.
Definition units3 (N : Z) (c3 : Int3) : Prop := let '(c0, c1, c2) := c3 in coprime c0 N /\ coprime c1 N /\ coprime c2 N.

Lemma big_exp_some : forall N c k, 0 < N -> coprime c N -> exists v, big_exp c k N = Some v.
Proof.
  intros N c k HN Hc. unfold big_exp. rewrite (proj2 (Z.eqb_neq N 0)) by lia.
  destruct (Z.leb_spec 0 k); [eauto|]. destruct (mod_inverse_some c N HN Hc) as (v & -> & _).
  destruct (_ && _); eauto.
Qed.
Lemma go_mod_some : forall a N, 0 < N -> exists v, go_mod a N = Ret v.
Proof. intros. rewrite go_mod_ret by lia. eauto. Qed.
Lemma mul_exp_some : forall N d c k, 0 < N -> coprime c N -> exists v, mul_exp N d c k = Ret v.
Proof.
  intros N d c k HN Hc. unfold mul_exp. destruct (big_exp_some N c k HN Hc) as [v ->]. cbn [deref bind]. now apply go_mod_some.
Qed.
Ltac some N :=
  repeat (progress (cbn [bind deref fold3]) ||
    match goal with
    | |- context [big_exp ?c ?k N] => let v := fresh "v" in let E := fresh "E" in
        destruct (big_exp_some N c k ltac:(lia) ltac:(assumption)) as [v E]; rewrite E
    | |- context [go_mod ?a N] => let v := fresh "v" in let E := fresh "E" in
        destruct (go_mod_some a N ltac:(lia)) as [v E]; rewrite E
    | |- context [mul_exp N ?d ?c ?k] => let v := fresh "v" in let E := fresh "E" in
        destruct (mul_exp_some N d c k ltac:(lia) ltac:(assumption)) as [v E]; rewrite E
    end).

Lemma AoP_VerifyResponse_answers : forall pp c c3 cm resp junk, 0 < ppN pp ->
  coprime (ppG pp) (ppN pp) -> coprime (ppH pp) (ppN pp) -> coprime c (ppN pp) -> units3 (ppN pp) c3 ->
  exists b, AoP_VerifyResponse sha pp c c3 cm resp junk = Ret b.
Proof.
  intros pp c [[c0 c1] c2] cm [[[z0 z1] z2] [[t0 t1] t2] T] junk HN HG HH Hc (H0 & H1 & H2).
  unfold AoP_VerifyResponse. cbn [ar_Z3 ar_T3 ar_T]. set (N := ppN pp) in *. some N. eauto.
Qed.
Lemma RP_VerifyResponse_answers : forall pp a b ca c0 c3 cm resp, 0 < ppN pp ->
  coprime (ppG pp) (ppN pp) -> coprime (ppH pp) (ppN pp) -> coprime ca (ppN pp) -> coprime c0 (ppN pp) -> units3 (ppN pp) c3 ->
  exists v, RP_VerifyResponse sha pp a b ca (let '(c1, c2, c3) := c3 in (c0, c1, c2, c3)) cm resp = Ret v.
Proof.
  intros pp a b ca c0 [[c1 c2] c3] cm [[[[z0 z1] z2] z3] [[[t0 t1] t2] t3] T] HN HG HH Hca Hc0 (H1 & H2 & H3).
  unfold RP_VerifyResponse. cbn [rr_Z4 rr_T4 rr_TAU]. set (N := ppN pp) in *. some N. eauto.
Qed.

(** the value of c4[0] and ca computed by RPVerifier.Verify *)
Lemma RP_Verify_unfold : forall pp a b pf, 1 < ppN pp -> coprime (ppG pp) (ppN pp) -> coprime (rp_c pf) (ppN pp) ->
  exists c0 ca, coprime c0 (ppN pp) /\ coprime ca (ppN pp) /\
  forall cm pf' v, rp_c pf' = rp_c pf -> rp_commit3 pf' = rp_commit3 pf -> rp_resp pf' = rp_resp pf -> rp_commit pf' = cm ->
    rv_pp v = pp -> rv_a v = a -> rv_b v = b ->
    fst (RP_Verify sha v pf') =
    RP_VerifyResponse sha pp a b ca (let '(c1, c2, c3) := rp_commit3 pf in (c0, c1, c2, c3)) cm (rp_resp pf).
Proof.
  intros pp a b pf HN HG Hc. set (N := ppN pp) in *. assert (P : 0 < N) by lia.
  destruct (mod_inverse_some (rp_c pf) N P Hc) as (inv & Ei & _ & Hi).
  destruct (big_exp_some N (ppG pp) b P HG) as [gb Egb].
  destruct (big_exp_some N (ppG pp) (- a) P HG) as [ga Ega].
  assert (U : forall g k v, coprime g N -> big_exp g k N = Some v -> coprime v N).
  { clear - P. intros g k v Hg E. unfold big_exp in E. rewrite (proj2 (Z.eqb_neq N 0)), Z.abs_eq in E by lia.
    destruct (Z.leb_spec 0 k).
    - injection E as <-. rewrite powmod_spec by lia. apply coprime_mod; [assumption|now apply coprime_pow].
    - destruct (mod_inverse_some g N P Hg) as (i & Ei & _ & Hi). rewrite Ei in E.
      assert (Ci : coprime i N) by (eapply coprime_inverse; eassumption).
      assert (Cp : coprime (powmod i (- k) N) N).
      { rewrite powmod_spec by lia. apply coprime_mod; [assumption|apply coprime_pow; [lia|assumption]]. }
      destruct (_ && _); injection E as <-; [|assumption].
      unfold coprime in *. rewrite <- Cp. rewrite <- (Z.gcd_opp_l (powmod i (- k) N)).
      rewrite (Z.gcd_comm (N - _)), (Z.gcd_comm (- _)). replace (N - powmod i (- k) N) with (- powmod i (- k) N + 1 * N) by ring.
      apply Z.gcd_add_mult_diag_r. }
  exists ((inv * gb) mod N), (powmod ((rp_c pf * ga) mod N) 4 N). split; [|split].
  - apply coprime_mod; [assumption|]. apply coprime_mul; [|exact (U _ _ _ HG Egb)]. exact (coprime_inverse _ _ _ P Hi).
  - rewrite powmod_spec by lia. apply coprime_mod; [assumption|]. apply coprime_pow; [lia|]. apply coprime_mod; [assumption|].
    apply coprime_mul; [assumption|exact (U _ _ _ HG Ega)].
  - intros cm pf' v E1 E2 E3 E4 Ep Ea Eb. unfold RP_Verify. rewrite Ep, E1, E2, E3, E4, Ea, Eb. fold N. rewrite Ei, Egb. cbn [deref bind].
    rewrite go_mod_ret, Z.abs_eq by lia. unfold exp_recv at 1. rewrite Ega.
    rewrite go_mod_ret, Z.abs_eq by lia. cbn [bind].
    assert (X4 : forall y, exp_recv 0 y 4 N = powmod y 4 N).
    { intros y. unfold exp_recv. rewrite big_exp_nonneg by lia. now rewrite powmod_spec by lia. }
    rewrite X4. destruct (rp_commit3 pf) as [[c1 c2] c3]. cbn [fst rv_c0 rv_c3 rv_ca rv_commitment rv_a rv_b rv_pp set_rest set_c0].
    rewrite Ea, Eb. reflexivity.
Qed.

(** ** history independence *)
Lemma AoP_Verify_state : forall v pf junk, av_pp (snd (AoP_Verify sha v pf junk)) = av_pp v /\
  av_c (snd (AoP_Verify sha v pf junk)) = av_c v.
Proof. intros. split; reflexivity. Qed.
Lemma AoP_Verify_fresh : forall v pf junk,
  fst (AoP_Verify sha v pf junk) = fst (AoP_Verify sha (NewZKAoPVerifier (av_pp v) (av_c v)) pf junk).
Proof. reflexivity. Qed.
Lemma RP_Verify_state : forall v pf, let v' := snd (RP_Verify sha v pf) in
  rv_pp v' = rv_pp v /\ rv_a v' = rv_a v /\ rv_b v' = rv_b v.
Proof.
  intros v pf. cbv zeta. unfold RP_Verify. destruct (mod_inverse _ _); [|repeat split].
  destruct (bind _ _); [|repeat split|repeat split]. destruct (bind _ _); repeat split.
Qed.
Lemma RP_Verify_fresh : forall v pf,
  fst (RP_Verify sha v pf) = fst (RP_Verify sha (NewRPVerifier (rv_pp v) (rv_a v) (rv_b v)) pf).
Proof.
  intros v pf. unfold RP_Verify, NewRPVerifier. cbn [rv_pp rv_a rv_b].
  destruct (mod_inverse _ _); [|reflexivity]. destruct (bind _ _); [|reflexivity|reflexivity].
  destruct (bind _ _); reflexivity.
Qed.
End Verifiers.
