(** Proofs about proof/poke.go. *)
From Coq Require Import ZArith Bool Lia String List.
From Verif Require Import GoBig GoBigFacts StrFacts FSModel FSProofs PokeModel.
Import ListNotations.
Open Scope Z_scope.

Lemma exp_recv_up : forall g k m, exp_recv 0 g k m = up m g k.
Proof. reflexivity. Qed.
Lemma go_mod_ret : forall a n, n <> 0 -> go_mod a n = Ret (a mod Z.abs n).
Proof. intros a n Hn. unfold go_mod. apply Z.eqb_neq in Hn. now rewrite Hn. Qed.
Lemma MultiExp_up : forall g x h r n, 0 < n -> MultiExp g x h r n = Ret ((up n g x * up n h r) mod n).
Proof. intros. unfold MultiExp. rewrite go_mod_ret, Z.abs_eq by lia. reflexivity. Qed.
Lemma MultiExp_ret : forall g x h r n, n <> 0 -> exists v, MultiExp g x h r n = Ret v.
Proof. intros. unfold MultiExp. rewrite go_mod_ret by assumption. eauto. Qed.
Lemma div_mod_pos : forall x l, 0 < l -> div_mod x l = Ret (x / l, x mod l).
Proof.
  intros x l Hl. unfold div_mod, go_div. rewrite (proj2 (Z.eqb_neq l 0)) by lia. cbn [bind].
  rewrite go_mod_ret by lia. cbn [bind]. unfold ediv. rewrite Z.abs_eq, Z.sgn_pos, Z.mul_1_l by lia. reflexivity.
Qed.

(** an exponentiation that Go carries out: non-negative exponent, or invertible base *)
Definition exp_ok (m g k : Z) : Prop := 0 <= k \/ (0 <= g /\ coprime g m).

Lemma up_range' : forall m g k, 0 < m -> 0 <= up m g k < m.
Proof.
  intros m g k Hm. unfold up, big_exp. rewrite (proj2 (Z.eqb_neq m 0)), Z.abs_eq by lia.
  destruct (Z.leb_spec 0 k); [rewrite powmod_spec by lia; apply Z.mod_pos_bound; lia|].
  destruct (mod_inverse g m) as [i|]; [|lia].
  assert (R : 0 <= powmod i (- k) m < m) by (rewrite powmod_spec by lia; apply Z.mod_pos_bound; lia).
  destruct ((g <? 0) && Z.odd k && negb (powmod i (- k) m =? 0)) eqn:E; [|assumption].
  destruct (Z.eqb_spec (powmod i (- k) m) 0); [rewrite andb_false_r in E; discriminate|]. lia.
Qed.

Lemma up_split : forall m g q l r, 0 < m -> 0 <= l -> 0 <= r -> exp_ok m g q ->
  (up m (up m g q) l * up m g r) mod m = up m g (q * l + r).
Proof.
  intros m g q l r Hm Hl Hr [Hq|[Hg Hc]].
  - rewrite !up_nonneg by nia. rewrite pow_mod_idem by assumption.
    rewrite <- Z.mul_mod by lia. rewrite <- Z.pow_mul_r by lia.
    rewrite <- Z.pow_add_r by nia. reflexivity.
  - rewrite up_mul, up_add by assumption. reflexivity.
Qed.

(** a non-unit base with a negative exponent: Go leaves 0 *)
Lemma up_nonunit : forall m g k, 0 < m -> ~ coprime g m -> k < 0 -> up m g k = 0.
Proof. intros m g k Hm Hc Hk. unfold up. now rewrite big_exp_nonunit. Qed.
Lemma up_zero_base : forall m l, 0 < m -> 0 < l -> up m 0 l = 0.
Proof. intros. rewrite up_nonneg, Z.pow_0_l by lia. reflexivity. Qed.

(** quotient and remainder recombine, also in the nil case *)
Lemma up_divmod : forall m g x l, 0 < m -> 0 <= g -> 0 < l ->
  (up m (up m g (x / l)) l * up m g (x mod l)) mod m = up m g x.
Proof.
  intros m g x l Hm Hg Hl. pose proof (Z.mod_pos_bound x l Hl) as Hr.
  destruct (Z_le_gt_dec 0 x) as [Hx|Hx].
  - rewrite up_split; [|lia|lia|lia|left; apply Z.div_pos; lia]. f_equal. pose proof (Z.div_mod x l). lia.
  - destruct (coprime_dec g m) as [Hc|Hc].
    + rewrite up_split; [|lia|lia|lia|right; auto]. f_equal. pose proof (Z.div_mod x l). lia.
    + assert (Hq : x / l < 0) by (apply Z.div_lt_upper_bound; lia).
      rewrite (up_nonunit m g (x / l)), up_zero_base, (up_nonunit m g x) by (assumption || lia). reflexivity.
Qed.

Section Poke.
Variable sha : string -> string.
Variable is_prime : Z -> bool.

Lemma prime_challenge : forall fuel t l t', GetPrimeChallenge sha is_prime fuel t = Ret (l, t') ->
  FS_HashToPrime sha is_prime fuel (info t) (maxlength t) = Ret l.
Proof.
  intros fuel t l t' H. unfold GetPrimeChallenge in H.
  destruct (FS_HashToPrime sha is_prime fuel (info t) (maxlength t)); try discriminate.
  cbn [bind] in H. congruence.
Qed.
Lemma prime_challenge_mono : forall fuel t r, GetPrimeChallenge sha is_prime fuel t = Ret r ->
  forall fuel', (fuel <= fuel')%nat -> GetPrimeChallenge sha is_prime fuel' t = Ret r.
Proof.
  intros fuel t [l t'] H fuel' Hf. pose proof (prime_challenge _ _ _ _ H) as E. unfold GetPrimeChallenge in *.
  unfold FS_HashToPrime in *. rewrite E in H. cbn [bind] in H.
  rewrite (fs_loop_mono sha is_prime fuel _ _ _ E fuel' Hf). cbn [bind]. exact H.
Qed.
Lemma prime_challenge_cases : forall fuel t,
  GetPrimeChallenge sha is_prime fuel t = OutOfFuel \/ exists l t', GetPrimeChallenge sha is_prime fuel t = Ret (l, t').
Proof.
  intros fuel t. unfold GetPrimeChallenge, FS_HashToPrime.
  generalize (wrapNumber (sha (written (info t))) (maxlength t)). generalize (maxlength t).
  intros len. induction fuel as [|fuel IH]; intros v; cbn [fs_loop]; [now left|].
  destruct (is_prime v); [right; cbn [bind]; eauto|apply IH].
Qed.
Lemma prime_challenge_pos : (forall p, is_prime p = true -> 1 < p) ->
  forall fuel t l t', GetPrimeChallenge sha is_prime fuel t = Ret (l, t') -> 1 < l.
Proof. intros Hp fuel t l t' H. apply prime_challenge, fs_prime_ret in H. now apply Hp. Qed.

Lemma negb_eqb_false : forall a b, negb (a =? b) = false -> a = b.
Proof. intros a b H. apply negb_false_iff in H. now apply Z.eqb_eq. Qed.

(** ** completeness *)
Lemma PoKEStar_complete : (forall p, is_prime p = true -> 1 < p) ->
  forall fuel fuel' pp C x pf, 0 < ppN pp -> 0 <= ppG pp -> (fuel <= fuel')%nat ->
  PoKEStarProve sha is_prime fuel pp C x = Ret (Some pf) ->
  PoKEStarVerify sha is_prime fuel' pp C (Some pf) = Ret true.
Proof.
  intros Hp fuel fuel' pp C x pf HN HG Hf H. unfold PoKEStarProve in H. rewrite exp_recv_up in H.
  destruct (negb (up (ppN pp) (ppG pp) x =? C)) eqn:E; [discriminate|]. apply negb_eqb_false in E.
  destruct (GetPrimeChallenge sha is_prime fuel (poke_transcript pp C)) as [[l t']| |] eqn:El; try discriminate.
  pose proof (prime_challenge_pos Hp _ _ _ _ El) as Hl.
  cbn [bind] in H. rewrite div_mod_pos in H by lia. cbn [bind] in H. injection H as <-.
  unfold PoKEStarVerify. rewrite (prime_challenge_mono _ _ _ El _ Hf). cbn [bind ps_Q ps_R].
  rewrite MultiExp_up by assumption. cbn [bind]. rewrite exp_recv_up, up_divmod, E, Z.eqb_refl by (assumption || lia).
  reflexivity.
Qed.

Lemma PoE_complete : (forall p, is_prime p = true -> 1 < p) ->
  forall fuel fuel' base N C x pf, 0 < N -> 0 <= base -> (fuel <= fuel')%nat ->
  PoEProve sha is_prime fuel base N C x = Ret (Some pf) ->
  PoEVerify sha is_prime fuel' base N C x (Some pf) = Ret true.
Proof.
  intros Hp fuel fuel' base N C x pf HN HG Hf H. unfold PoEProve in H. rewrite exp_recv_up in H.
  destruct (negb (up N base x =? C)) eqn:E; [discriminate|]. apply negb_eqb_false in E.
  destruct (GetPrimeChallenge sha is_prime fuel (poe_transcript base N C x)) as [[l t']| |] eqn:El; try discriminate.
  pose proof (prime_challenge_pos Hp _ _ _ _ El) as Hl.
  cbn [bind] in H. pose proof (div_mod_pos x l ltac:(lia)) as D. unfold div_mod in D.
  destruct (go_div x l) as [q| |]; try discriminate. cbn [bind] in H, D. injection H as <-.
  destruct (go_mod x l) as [r| |] eqn:Er; try discriminate. cbn [bind] in D. injection D as -> ->.
  unfold PoEVerify. rewrite (prime_challenge_mono _ _ _ El _ Hf). cbn [bind poe_Q]. rewrite Er. cbn [bind].
  rewrite MultiExp_up by assumption. cbn [bind]. rewrite exp_recv_up, up_divmod, E, Z.eqb_refl by (assumption || lia).
  reflexivity.
Qed.

(** combination used by both equations of ZKPoKE *)
Lemma zk_combine : forall m g x k c l, 0 < m -> 0 <= c -> 0 <= k -> 0 < l ->
  0 <= x \/ (0 <= g /\ coprime g m) ->
  (up m (up m g ((c * x + k) / l)) l * up m g ((c * x + k) mod l)) mod m =
  (up m (up m g x) c * up m g k) mod m.
Proof.
  intros m g x k c l Hm Hc Hk Hl Hx. pose proof (Z.mod_pos_bound (c * x + k) l Hl) as Hr.
  rewrite (up_split m g x c k) by assumption.
  rewrite up_split; [|lia|lia|lia|].
  - f_equal. pose proof (Z.div_mod (c * x + k) l). lia.
  - destruct Hx as [Hx|Hx]; [left; apply Z.div_pos; nia|right; assumption].
Qed.

Lemma pow_mod_mul_base : forall m a b c, 0 < m -> 0 <= c -> up m ((a * b) mod m) c = (up m a c * up m b c) mod m.
Proof.
  intros m a b c Hm Hc. rewrite !up_nonneg by assumption. rewrite pow_mod_idem, Z.pow_mul_l by assumption.
  now rewrite <- Z.mul_mod by lia.
Qed.

Lemma ZKPoKE_complete : (forall p, is_prime p = true -> 1 < p) ->
  forall fuel fuel' pp u x w k rhox rhok pf, 0 < ppN pp -> (fuel <= fuel')%nat ->
  0 <= k -> 0 <= rhox -> 0 <= rhok ->
  0 <= x \/ (0 <= ppG pp /\ coprime (ppG pp) (ppN pp) /\ 0 <= u /\ coprime u (ppN pp)) ->
  ZKPoKEProve sha is_prime fuel pp u x w k rhox rhok = Ret (Some pf) ->
  ZKPoKEVerify sha is_prime fuel' pp u w (Some pf) = Ret true.
Proof.
  intros Hp fuel fuel' pp u x w k rhox rhok pf HN Hf Hk Hrx Hrk Hx H. unfold ZKPoKEProve in H. rewrite exp_recv_up in H.
  destruct (negb (up (ppN pp) u x =? w)) eqn:E; [discriminate|]. apply negb_eqb_false in E.
  rewrite !MultiExp_up in H by assumption. cbn [bind] in H.
  set (N := ppN pp) in *. set (G := ppG pp) in *. set (Hh := ppH pp) in *.
  set (z := (up N G x * up N Hh rhox) mod N) in *. set (Ag := (up N G k * up N Hh rhok) mod N) in *.
  rewrite exp_recv_up in H. set (Au := up N u k) in *.
  destruct (GetIntChallenge sha (zkpoke_transcript pp u w z Ag Au)) as [c t1] eqn:Ec.
  destruct (GetPrimeChallenge sha is_prime fuel t1) as [[l t']| |] eqn:El; try discriminate.
  pose proof (prime_challenge_pos Hp _ _ _ _ El) as Hl.
  assert (Hc : 0 <= c). { unfold GetIntChallenge in Ec. injection Ec as <- _. apply wrap_range. }
  cbn [bind] in H. rewrite !div_mod_pos in H by lia. cbn [bind] in H. rewrite MultiExp_up in H by assumption.
  cbn [bind] in H. rewrite exp_recv_up in H. injection H as <-.
  unfold ZKPoKEVerify. cbn [zk_z zk_Ag zk_Au zk_Qg zk_Qu zk_rx zk_rrho]. rewrite Ec.
  rewrite (prime_challenge_mono _ _ _ El _ Hf). cbn [bind]. fold N G Hh. rewrite MultiExp_up by assumption. cbn [bind].
  rewrite !go_mod_ret by lia. cbn [bind]. rewrite !exp_recv_up, !(Z.abs_eq N) by lia.
  set (sx := c * x + k). set (sr := c * rhox + rhok).
  assert (HxG : 0 <= x \/ (0 <= G /\ coprime G N)) by tauto.
  assert (Hxu : 0 <= x \/ (0 <= u /\ coprime u N)) by tauto.
  pose proof (zk_combine N G x k c l HN Hc Hk ltac:(lia) HxG) as CG. fold sx in CG.
  pose proof (zk_combine N Hh rhox rhok c l HN Hc Hrk ltac:(lia) (or_introl Hrx)) as CH. fold sr in CH.
  pose proof (zk_combine N u x k c l HN Hc Hk ltac:(lia) Hxu) as CU. fold sx in CU.
  assert (Eq1 : (up N ((up N G (sx / l) * up N Hh (sr / l)) mod N) l * ((up N G (sx mod l) * up N Hh (sr mod l)) mod N)) mod N
              = (up N z c * Ag) mod N).
  { unfold z, Ag. rewrite !pow_mod_mul_base by lia. rewrite <- !Z.mul_mod by lia.
    set (A1 := up N (up N G (sx / l)) l) in *. set (A2 := up N (up N Hh (sr / l)) l) in *.
    set (B1 := up N G (sx mod l)) in *. set (B2 := up N Hh (sr mod l)) in *.
    replace (A1 * A2 * (B1 * B2)) with ((A1 * B1) * (A2 * B2)) by ring.
    rewrite Z.mul_mod, CG, CH, <- Z.mul_mod by lia. f_equal. ring. }
  rewrite Eq1, Z.eqb_refl. cbn [negb].
  rewrite MultiExp_up by assumption. cbn [bind]. rewrite go_mod_ret by lia. cbn [bind]. rewrite (Z.abs_eq N) by lia.
  assert (Er : exp_recv ((up N z c * Ag) mod N) w c N = up N w c).
  { unfold exp_recv, up, N. rewrite big_exp_nonneg by assumption. reflexivity. }
  rewrite Er, <- E, CU, Z.eqb_refl. reflexivity.
Qed.

(** ** when the provers refuse *)
Lemma PoKEStar_refuses : forall fuel pp C x, PoKEStarProve sha is_prime fuel pp C x = Ret None <->
  exp_recv 0 (ppG pp) x (ppN pp) <> C.
Proof.
  intros fuel pp C x. unfold PoKEStarProve. destruct (Z.eqb_spec (exp_recv 0 (ppG pp) x (ppN pp)) C) as [E|E]; cbn [negb].
  - split; [|congruence]. intros H. exfalso.
    destruct (prime_challenge_cases fuel (poke_transcript pp C)) as [X|(l & t' & X)]; rewrite X in H; cbn [bind] in H; [discriminate|].
    destruct (div_mod x l) as [[q r]| |]; discriminate.
  - split; auto.
Qed.
Lemma PoE_refuses : forall fuel base N C x, PoEProve sha is_prime fuel base N C x = Ret None <->
  exp_recv 0 base x N <> C.
Proof.
  intros fuel base N C x. unfold PoEProve. destruct (Z.eqb_spec (exp_recv 0 base x N) C) as [E|E]; cbn [negb].
  - split; [|congruence]. intros H. exfalso.
    destruct (prime_challenge_cases fuel (poe_transcript base N C x)) as [X|(l & t' & X)]; rewrite X in H; cbn [bind] in H; [discriminate|].
    destruct (go_div x l) as [q| |]; discriminate.
  - split; auto.
Qed.
Lemma ZKPoKE_refuses : forall fuel pp u x w k rhox rhok, 0 < ppN pp ->
  ZKPoKEProve sha is_prime fuel pp u x w k rhox rhok = Ret None <-> exp_recv 0 u x (ppN pp) <> w.
Proof.
  intros fuel pp u x w k rhox rhok HN. unfold ZKPoKEProve.
  destruct (Z.eqb_spec (exp_recv 0 u x (ppN pp)) w) as [E|E]; cbn [negb].
  - split; [|congruence]. intros H. exfalso. rewrite !MultiExp_up in H by assumption. cbn [bind] in H.
    destruct (GetIntChallenge sha _) as [c t1].
    destruct (prime_challenge_cases fuel t1) as [X|(l & t' & X)]; rewrite X in H; cbn [bind] in H; [discriminate|].
    destruct (div_mod _ l) as [[q r]| |]; try discriminate. cbn [bind] in H.
    destruct (div_mod _ l) as [[q' r']| |]; try discriminate. cbn [bind] in H.
    rewrite MultiExp_up in H by assumption. discriminate.
  - split; auto.
Qed.

(** ** the verifiers answer *)
Definition answers {A} (o : outcome A) (found : Prop) : Prop := o <> Panic /\ (found -> exists b, o = Ret b).

Lemma PoKEStarVerify_answers : forall fuel pp C pf, ppN pp <> 0 ->
  answers (PoKEStarVerify sha is_prime fuel pp C (Some pf))
          (exists r, GetPrimeChallenge sha is_prime fuel (poke_transcript pp C) = Ret r).
Proof.
  intros fuel pp C pf HN. unfold PoKEStarVerify, answers.
  destruct (prime_challenge_cases fuel (poke_transcript pp C)) as [X|(l & t' & X)]; rewrite X; cbn [bind].
  - split; [discriminate|]. intros [r Hr]. discriminate.
  - destruct (MultiExp_ret (ps_Q pf) l (ppG pp) (ps_R pf) (ppN pp) HN) as [v ->]. cbn [bind].
    split; [discriminate|]. eauto.
Qed.
Lemma PoEVerify_answers : (forall p, is_prime p = true -> 1 < p) -> forall fuel base N C x pf, N <> 0 ->
  answers (PoEVerify sha is_prime fuel base N C x (Some pf))
          (exists r, GetPrimeChallenge sha is_prime fuel (poe_transcript base N C x) = Ret r).
Proof.
  intros Hp fuel base N C x pf HN. unfold PoEVerify, answers.
  destruct (prime_challenge_cases fuel (poe_transcript base N C x)) as [X|(l & t' & X)]; rewrite X; cbn [bind].
  - split; [discriminate|]. intros [r Hr]. discriminate.
  - pose proof (prime_challenge_pos Hp _ _ _ _ X). rewrite go_mod_ret by lia. cbn [bind].
    destruct (MultiExp_ret (poe_Q pf) l base (x mod Z.abs l) N HN) as [v ->]. cbn [bind].
    split; [discriminate|]. eauto.
Qed.
Lemma ZKPoKEVerify_answers : forall fuel pp u w pf, ppN pp <> 0 ->
  answers (ZKPoKEVerify sha is_prime fuel pp u w (Some pf))
          (exists r, GetPrimeChallenge sha is_prime fuel
             (snd (GetIntChallenge sha (zkpoke_transcript pp u w (zk_z pf) (zk_Ag pf) (zk_Au pf)))) = Ret r).
Proof.
  intros fuel pp u w pf HN. unfold ZKPoKEVerify, answers.
  destruct (GetIntChallenge sha (zkpoke_transcript pp u w (zk_z pf) (zk_Ag pf) (zk_Au pf))) as [c t1]. cbn [snd].
  destruct (prime_challenge_cases fuel t1) as [X|(l & t' & X)]; rewrite X; cbn [bind].
  - split; [discriminate|]. intros [r Hr]. discriminate.
  - destruct (MultiExp_ret (ppG pp) (zk_rx pf) (ppH pp) (zk_rrho pf) (ppN pp) HN) as [v ->]. cbn [bind].
    rewrite !go_mod_ret by assumption. cbn [bind].
    destruct (negb _); [split; [discriminate|eauto]|].
    destruct (MultiExp_ret (zk_Qu pf) l u (zk_rx pf) (ppN pp) HN) as [v' ->]. cbn [bind].
    rewrite go_mod_ret by assumption. cbn [bind]. split; [discriminate|]. eauto.
Qed.

(** ** attacks with the element of order two *)
Lemma minus_one_odd : forall m l, 1 < m -> 0 <= l -> Z.odd l = true -> up m (m - 1) l = m - 1.
Proof.
  intros m l Hm Hl Ho. rewrite up_nonneg by lia.
  replace (m - 1) with (-1 + 1 * m) at 1 by ring. rewrite <- pow_mod_idem, Z_mod_plus_full, pow_mod_idem by assumption.
  rewrite (Z.odd_spec l) in Ho. destruct Ho as [k ->]. rewrite Z.pow_add_r, Z.pow_mul_r by lia.
  change ((-1) ^ 2) with 1. rewrite Z.pow_1_l by lia. change (1 * (-1) ^ 1) with (-1).
  symmetry. apply (Z.mod_unique_pos _ _ (-1)); lia.
Qed.
Lemma minus_one_even : forall m l, 1 < m -> 0 <= l -> Z.odd l = false -> up m (m - 1) l = 1.
Proof.
  intros m l Hm Hl Ho. rewrite up_nonneg by lia.
  replace (m - 1) with (-1 + 1 * m) at 1 by ring. rewrite <- pow_mod_idem, Z_mod_plus_full, pow_mod_idem by assumption.
  assert (He : Z.even l = true) by (rewrite <- Z.negb_odd, Ho; reflexivity).
  rewrite (Z.even_spec l) in He. destruct He as [k ->]. rewrite Z.pow_mul_r by lia.
  change ((-1) ^ 2) with 1. rewrite Z.pow_1_l by lia. apply Z.mod_small. lia.
Qed.
Lemma up_one : forall m k, 1 < m -> 0 <= k -> up m 1 k = 1.
Proof. intros. rewrite up_nonneg, Z.pow_1_l by lia. apply Z.mod_small. lia. Qed.

(** anybody proves "knowledge of the logarithm of -1" *)
Lemma PoKEStar_forge : forall fuel pp l t', 1 < ppN pp ->
  GetPrimeChallenge sha is_prime fuel (poke_transcript pp (ppN pp - 1)) = Ret (l, t') -> 0 <= l -> Z.odd l = true ->
  PoKEStarVerify sha is_prime fuel pp (ppN pp - 1) (Some {| ps_Q := ppN pp - 1; ps_R := 0 |}) = Ret true.
Proof.
  intros fuel pp l t' HN El Hl Ho. unfold PoKEStarVerify. rewrite El. cbn [bind ps_Q ps_R].
  rewrite MultiExp_up by lia. cbn [bind]. rewrite minus_one_odd, up_0, mul_mod_idem_r, Z.mul_1_r by (assumption || lia).
  rewrite Z.mod_small, Z.eqb_refl by lia. reflexivity.
Qed.

(** the negated power with the negated quotient *)
Lemma PoE_forge : forall fuel base N x l t', 1 < N -> 0 <= x -> base ^ x mod N <> 0 ->
  GetPrimeChallenge sha is_prime fuel (poe_transcript base N (N - base ^ x mod N) x) = Ret (l, t') ->
  0 < l -> Z.odd l = true ->
  PoEVerify sha is_prime fuel base N (N - base ^ x mod N) x
    (Some {| poe_Q := ((N - 1) * base ^ (x / l)) mod N |}) = Ret true.
Proof.
  intros fuel base N x l t' HN Hx Hb El Hl Ho. unfold PoEVerify. rewrite El. cbn [bind poe_Q].
  rewrite go_mod_ret, Z.abs_eq by lia. cbn [bind]. rewrite MultiExp_up by lia. cbn [bind].
  rewrite pow_mod_mul_base, minus_one_odd by (assumption || lia).
  pose proof (Z.div_pos x l Hx Hl) as Hq. pose proof (Z.mod_pos_bound x l Hl) as Hr.
  rewrite !up_nonneg by lia. rewrite mul_mod_idem_l, <- Z.mul_assoc, <- (mul_mod_idem_r (N - 1)).
  rewrite <- Z.mul_mod by lia. rewrite <- Z.pow_mul_r, <- Z.pow_add_r by nia.
  replace (x / l * l + x mod l) with x by (pose proof (Z.div_mod x l); lia).
  set (p := base ^ x mod N) in *. assert (Hp : 0 <= p < N) by (apply Z.mod_pos_bound; lia).
  replace (((N - 1) * p) mod N) with (N - p); [now rewrite Z.eqb_refl|].
  apply (Z.mod_unique_pos _ _ (p - 1)); lia.
Qed.

Lemma ZKPoKE_forge : forall fuel pp u l t', 1 < ppN pp ->
  let w := ppN pp - 1 in
  let c := fst (GetIntChallenge sha (zkpoke_transcript pp u w 1 1 1)) in
  GetPrimeChallenge sha is_prime fuel (snd (GetIntChallenge sha (zkpoke_transcript pp u w 1 1 1))) = Ret (l, t') ->
  0 <= l -> Z.odd l = true ->
  ZKPoKEVerify sha is_prime fuel pp u w
    (Some {| zk_z := 1; zk_Ag := 1; zk_Au := 1; zk_Qg := 1; zk_Qu := (if Z.odd c then ppN pp - 1 else 1);
             zk_rx := 0; zk_rrho := 0 |}) = Ret true.
Proof.
  intros fuel pp u l t' HN w c El Hl Ho. unfold ZKPoKEVerify. cbn [zk_z zk_Ag zk_Au zk_Qg zk_Qu zk_rx zk_rrho].
  assert (Hc : 0 <= c) by apply wrap_range.
  destruct (GetIntChallenge sha (zkpoke_transcript pp u w 1 1 1)) as [c0 t1] eqn:Ec. cbn [fst snd] in *. subst c.
  rewrite El. cbn [bind]. set (N := ppN pp) in *.
  rewrite MultiExp_up by lia. cbn [bind]. rewrite !go_mod_ret, !Z.abs_eq by lia. cbn [bind].
  rewrite !exp_recv_up, !up_0, !up_one by lia. rewrite !(Z.mod_small 1) by lia.
  rewrite Z.eqb_refl. cbn [negb].
  rewrite MultiExp_up by lia. cbn [bind]. rewrite go_mod_ret, Z.abs_eq by lia. cbn [bind].
  assert (Ew : exp_recv 1 w c0 N = up N (N - 1) c0).
  { unfold exp_recv, up, w. rewrite big_exp_nonneg by lia. reflexivity. }
  rewrite Ew, up_0, mul_mod_idem_r, !Z.mul_1_r by lia. destruct (Z.odd c0) eqn:Oc.
  - rewrite !minus_one_odd, Z.eqb_refl by (assumption || lia). reflexivity.
  - rewrite minus_one_even, up_one, Z.eqb_refl by (assumption || lia). reflexivity.
Qed.
End Poke.
