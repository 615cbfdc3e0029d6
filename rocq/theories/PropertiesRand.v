(** Theorems for property C78: what the random draws of the project are distributed like.
    A source is the string of bytes rand.Reader delivers; frequencies count the sources of one length. *)
From Coq Require Import ZArith Bool Lia String Ascii List.
From Verif Require Import GoBig GoBigFacts StrFacts HashModel PokeModel SquaresModel RangeModel RandModel RandProofs.
Import ListNotations.
Open Scope Z_scope.

(** the test e recognises the value a *)
Definition is_point {A} (e : A -> bool) (a : A) : Prop := forall x, e x = true <-> x = a.
(** how many sources of L bytes make the draw return a value that passes e *)
Definition freq {A} (d : draw A) (e : A -> bool) (L : nat) : nat :=
  tally (fun s => match d s with Ret (Some (x, _)) => e x | _ => false end) L.
(** all values of V are drawn equally often, whatever the number of bytes available *)
Definition uniform {A} (d : draw A) (V : A -> Prop) : Prop :=
  forall a a' e e', V a -> V a' -> is_point e a -> is_point e' a' -> forall L, freq d e L = freq d e' L.
(** a draw ends with an error of the source or with a value of V *)
Definition answers {A} (d : draw A) (V : A -> Prop) : Prop :=
  forall src, d src = Ret None \/ exists a rest, d src = Ret (Some (a, rest)) /\ V a.

Lemma law_uniform : forall A (d : draw A) V, law d V d V -> uniform d V.
Proof.
  intros A d V H a a' e e' Ha Ha' He He' L. unfold freq.
  apply (H a a' (fun x _ => e x) (fun x _ => e' x) Ha Ha'); [intros x _; apply He|intros x _; apply He'|].
  intros L'. apply tally_ext. intros s _. rewrite (proj2 (He a) eq_refl), (proj2 (He' a') eq_refl). reflexivity.
Qed.
Lemma law_weaken : forall A (d : draw A) (V W : A -> Prop), (forall a, W a -> V a) -> law d V d V -> law d W d W.
Proof. intros A d V W HW H a a' G G' Ha Ha'. apply H; auto. Qed.
Lemma answers_bind : forall A B (d : draw A) V (f : A -> draw B) W, answers d V -> (forall a, V a -> answers (f a) W) ->
  answers (bind_draw d f) W.
Proof.
  intros A B d V f W Hd Hf src. unfold bind_draw. destruct (Hd src) as [->|(a & r & -> & Ha)]; [now left|]. cbn [bind]. now apply Hf.
Qed.
Lemma answers_ret : forall A (a : A) (V : A -> Prop), V a -> answers (ret_draw a) V.
Proof. intros A a V H src. right. exists a, src. split; [reflexivity|exact H]. Qed.

(** ** rand.Int *)
Theorem C78_Int : forall src max,
  (max <= 0 -> rand_Int src max = Panic) /\
  (0 < max -> rand_Int src max = Ret None \/ exists v rest, rand_Int src max = Ret (Some (v, rest)) /\ 0 <= v < max).
Proof.
  intros src max. split; [|apply rand_answers]. intros H. unfold rand_Int. destruct (Z.leb_spec max 0); [reflexivity|lia].
Qed.
Theorem C78_Int_uniform : forall max, 0 < max -> uniform (fun src => rand_Int src max) (fun v => 0 <= v < max).
Proof. intros max H. apply law_uniform. now apply rand_law. Qed.
(** of the sources that hold T reads, at most one in 2^T is exhausted without a value *)
Theorem C78_Int_rarely_fails : forall max T, 0 < max ->
  let k := Z.to_nat ((bit_len (max - 1) + 7) / 8) in
  2 ^ Z.of_nat T * Z.of_nat (tally (fun s => match rand_Int s max with Ret (Some _) => false | _ => true end) (T * k)) <=
    256 ^ Z.of_nat (T * k).
Proof.
  intros max T Hmax k. destruct (Z.eq_dec max 1) as [->|Hne].
  - rewrite (tally_ext _ (fun _ => false)) by (intros s _; now rewrite rand_one). rewrite tally_false, Z.mul_0_r. apply Z.pow_nonneg. lia.
  - destruct (rand_shape max ltac:(lia)) as (Hk & Hb & Hs & Hm & Hr). fold k in Hk, Hs, Hr. set (b := if _ =? 0 then 8 else _) in *.
    rewrite <- Hs in Hm. pose proof (fails_bound k b max Hk Hb Hm T) as F. rewrite Nat2Z.inj_pow in F. change (Z.of_nat 256) with 256 in F.
    unfold fails in F. erewrite tally_ext; [exact F|]. intros s _. cbv beta. now rewrite Hr.
Qed.
Example C78_Int_case : rand_Int "=" 10 = Ret None /\ rand_Int "=s" 10 = Ret (Some (3, EmptyString)) /\ rand_Int "=E," 10 = Ret (Some (5, ","%string)) /\
  freq (fun src => rand_Int src 10) (Z.eqb 3) 1 = 16%nat /\ freq (fun src => rand_Int src 10) (Z.eqb 9) 1 = 16%nat /\
  freq (fun src => rand_Int src 10) (Z.eqb 10) 1 = 0%nat /\ is_point (Z.eqb 3) 3.
Proof. do 6 (split; [vm_compute; reflexivity|]). intros x. rewrite Z.eqb_eq. split; now symmetry. Qed.

(** ** GenRandomizer: panics when the source fails, and is uniform on [0, 2^2047) *)
Theorem C78_GenRandomizer : 
  (forall src, GenRandomizer src = Panic \/ exists r rest, GenRandomizer src = Ret (r, rest) /\ 0 <= r < 2 ^ 2047) /\
  forall a a' L, 0 <= a < 2 ^ 2047 -> 0 <= a' < 2 ^ 2047 ->
    tally (fun s => match GenRandomizer s with Ret (r, _) => r =? a | _ => false end) L =
    tally (fun s => match GenRandomizer s with Ret (r, _) => r =? a' | _ => false end) L.
Proof.
  assert (HM : Min2048 = 2 ^ 2047) by reflexivity. assert (P : 0 < 2 ^ 2047) by (apply Z.pow_pos_nonneg; lia). rewrite <- HM in *. clear HM. split.
  - intros src. unfold GenRandomizer. destruct (rand_answers src Min2048 P) as [->|(v & r & -> & Hv)]; [now left|]. right. exists v, r. auto.
  - intros a a' L Ha Ha'.
    assert (E : forall c, tally (fun s => match GenRandomizer s with Ret (r, _) => r =? c | _ => false end) L =
      freq (fun src => rand_Int src Min2048) (fun x => x =? c) L).
    { intros c. apply tally_ext. intros s _. unfold GenRandomizer. destruct (rand_Int s Min2048) as [[[v r]|]| |]; reflexivity. }
    rewrite !E. apply (C78_Int_uniform Min2048 P a a'); auto; intros x; apply Z.eqb_eq.
Qed.

(** ** RandomSetupForUniversalHash: A and B independent and uniform below p; A may be 0 *)
Theorem C78_universal_hash : forall p, 0 < p ->
  (forall src, RandomSetupForUniversalHash_AB p src = Panic \/
     exists a b rest, RandomSetupForUniversalHash_AB p src = Ret (a, b, rest) /\ 0 <= a < p /\ 0 <= b < p) /\
  forall a b a' b' L, 0 <= a < p -> 0 <= b < p -> 0 <= a' < p -> 0 <= b' < p ->
    tally (fun s => match RandomSetupForUniversalHash_AB p s with Ret (x, y, _) => (x =? a) && (y =? b) | _ => false end) L =
    tally (fun s => match RandomSetupForUniversalHash_AB p s with Ret (x, y, _) => (x =? a') && (y =? b') | _ => false end) L.
Proof.
  intros p Hp. set (d := fun src => rand_Int src p). split.
  - intros src. unfold RandomSetupForUniversalHash_AB. destruct (rand_answers src p Hp) as [->|(v & r & -> & Hv)]; [now left|]. cbn [bind].
    destruct (rand_answers r p Hp) as [->|(v' & r' & -> & Hv')]; [now left|]. right. exists v, v', r'. auto.
  - intros a b a' b' L Ha Hb Ha' Hb'.
    assert (E : forall c e, tally (fun s => match RandomSetupForUniversalHash_AB p s with Ret (x, y, _) => (x =? c) && (y =? e) | _ => false end) L =
      paths d (fun x r => (x =? c) && match d r with Ret (Some (y, _)) => y =? e | _ => false end) L).
    { intros c e. apply tally_ext. intros s _. unfold RandomSetupForUniversalHash_AB, d. destruct (rand_Int s p) as [[[v r]|]| |]; try reflexivity.
      cbn [bind]. destruct (rand_Int r p) as [[[v' r']|]| |]; cbn [bind]; rewrite ?andb_false_r; reflexivity. }
    rewrite !E. apply (rand_law p Hp a a'); auto.
    + intros x r H. apply andb_true_iff in H. now apply Z.eqb_eq.
    + intros x r H. apply andb_true_iff in H. now apply Z.eqb_eq.
    + intros L'. transitivity (freq d (fun y => y =? b) L').
      * apply tally_ext. intros s _. rewrite Z.eqb_refl. reflexivity.
      * transitivity (freq d (fun y => y =? b') L').
        -- apply (C78_Int_uniform p Hp b b'); auto; intros x; apply Z.eqb_eq.
        -- apply tally_ext. intros s _. rewrite Z.eqb_refl. reflexivity.
Qed.
Example C78_universal_case : RandomSetupForUniversalHash_AB 10 "=@5" = Ret (0, 5, EmptyString).
Proof. vm_compute. reflexivity. Qed.

(** ** the coins of the proofs *)
Definition upto (n v : Z) : Prop := 0 <= v <= n.
Definition all3 (V : Z -> Prop) (c : Int3) : Prop := let '(c0, c1, c2) := c in V c0 /\ V c1 /\ V c2.
Definition all4 (V : Z -> Prop) (c : Int4) : Prop := let '(c0, c1, c2, c3) := c in V c0 /\ V c1 /\ V c2 /\ V c3.

Lemma fresh_law : forall n, 0 <= n -> law (freshRandCoin n) (upto n) (freshRandCoin n) (upto n).
Proof. intros n Hn. eapply law_weaken; [|apply rand_law; lia]. unfold upto. intros a Ha. cbv beta. lia. Qed.
Lemma fresh_answers : forall n, 0 <= n -> answers (freshRandCoin n) (upto n).
Proof.
  intros n Hn src. destruct (rand_answers src (n + 1) ltac:(lia)) as [E|(v & r & E & Hv)]; [now left|].
  right. exists v, r. split; [exact E|]. unfold upto. lia.
Qed.

Lemma law_bind2 : forall A B (d : draw A) V (f f' : A -> draw B) (W W' : B -> Prop) (pr pr' : B -> A),
  law d V d V -> (forall b, W b -> V (pr b)) -> (forall b, W' b -> V (pr' b)) ->
  (forall a s b r, f a s = Ret (Some (b, r)) -> pr b = a) ->
  (forall a s b r, f' a s = Ret (Some (b, r)) -> pr' b = a) ->
  (forall a a', V a -> V a' -> law (f a) (fun b => W b /\ pr b = a) (f' a') (fun b => W' b /\ pr' b = a')) ->
  law (bind_draw d f) W (bind_draw d f') W'.
Proof.
  intros A B d V f f' W W' pr pr' Hd HW HW' Hp Hp' Hf b b' G G' Wb Wb' HG HG' E L.
  set (K := fun (h : A -> draw B) (g : B -> string -> bool) (a : A) (rest : string) => match h a rest with Ret (Some (y, r)) => g y r | _ => false end).
  assert (P : forall h g, paths (bind_draw d h) g L = paths d (K h g) L).
  { intros h g. apply tally_ext. intros s _. unfold bind_draw, K. destruct (d s) as [[[a r]|]| |]; reflexivity. }
  rewrite !P. apply (Hd (pr b) (pr' b')); auto.
  - intros x r H. unfold K in H. destruct (f x r) as [[[y r']|]| |] eqn:F; try discriminate. apply HG in H. subst y. symmetry. eapply Hp; eauto.
  - intros x r H. unfold K in H. destruct (f' x r) as [[[y r']|]| |] eqn:F; try discriminate. apply HG' in H. subst y. symmetry. eapply Hp'; eauto.
  - intros L'. apply (Hf (pr b) (pr' b') (HW b Wb) (HW' b' Wb') b b' G G'); auto.
Qed.
Lemma law_ret2 : forall A (c c' : A) (W W' : A -> Prop), (forall a, W a -> a = c) -> (forall a, W' a -> a = c') ->
  law (ret_draw c) W (ret_draw c') W'.
Proof. intros A c c' W W' H H' a a' G G' Ha Ha' _ _ E L. rewrite (H a Ha), (H' a' Ha') in E. apply E. Qed.

(** inversion of a successful chain *)
Lemma bind_draw_some : forall A B (d : draw A) (f : A -> draw B) s b r, bind_draw d f s = Ret (Some (b, r)) ->
  exists a s', d s = Ret (Some (a, s')) /\ f a s' = Ret (Some (b, r)).
Proof.
  intros A B d f s b r H. unfold bind_draw in H. destruct (d s) as [[[a s']|]| |]; try discriminate. eauto.
Qed.
Ltac chain_inv := intros;
  repeat match goal with H : bind_draw _ _ _ = Ret (Some _) |- _ => apply bind_draw_some in H; destruct H as (? & ? & ? & H) end;
  match goal with H : ret_draw _ _ = Ret (Some _) |- _ => injection H as <- <- end; reflexivity.

Lemma three_law : forall n, 0 <= n -> law (newThreeRandCoins n) (all3 (upto n)) (newThreeRandCoins n) (all3 (upto n)).
Proof.
  intros n Hn. pose proof (fresh_law n Hn) as F. unfold newThreeRandCoins.
  apply (law_bind2 _ _ _ (upto n) _ _ _ _ (fun '(c0, _, _) => c0) (fun '(c0, _, _) => c0)); [exact F| | |chain_inv|chain_inv|].
  1, 2: intros [[c0 c1] c2]; cbn; tauto.
  intros a a' Ha Ha'.
  apply (law_bind2 _ _ _ (upto n) _ _ _ _ (fun '(_, c1, _) => c1) (fun '(_, c1, _) => c1)); [exact F| | |chain_inv|chain_inv|].
  1, 2: intros [[c0 c1] c2]; cbn; tauto.
  intros b b' Hb Hb'.
  apply (law_bind2 _ _ _ (upto n) _ _ _ _ (fun '(_, _, c2) => c2) (fun '(_, _, c2) => c2)); [exact F| | |chain_inv|chain_inv|].
  1, 2: intros [[c0 c1] c2]; cbn; tauto.
  intros c c' Hc Hc'. apply law_ret2; intros [[c0 c1] c2] [[[_ <-] <-] <-]; reflexivity.
Qed.
Lemma four_law : forall n, 0 <= n -> law (newFourRandCoins n) (all4 (upto n)) (newFourRandCoins n) (all4 (upto n)).
Proof.
  intros n Hn. pose proof (fresh_law n Hn) as F. unfold newFourRandCoins.
  apply (law_bind2 _ _ _ (upto n) _ _ _ _ (fun '(c0, _, _, _) => c0) (fun '(c0, _, _, _) => c0)); [exact F| | |chain_inv|chain_inv|].
  1, 2: intros [[[c0 c1] c2] c3]; cbn; tauto.
  intros a a' Ha Ha'.
  apply (law_bind2 _ _ _ (upto n) _ _ _ _ (fun '(_, c1, _, _) => c1) (fun '(_, c1, _, _) => c1)); [exact F| | |chain_inv|chain_inv|].
  1, 2: intros [[[c0 c1] c2] c3]; cbn; tauto.
  intros b b' Hb Hb'.
  apply (law_bind2 _ _ _ (upto n) _ _ _ _ (fun '(_, _, c2, _) => c2) (fun '(_, _, c2, _) => c2)); [exact F| | |chain_inv|chain_inv|].
  1, 2: intros [[[c0 c1] c2] c3]; cbn; tauto.
  intros c c' Hc Hc'.
  apply (law_bind2 _ _ _ (upto n) _ _ _ _ (fun '(_, _, _, c3) => c3) (fun '(_, _, _, c3) => c3)); [exact F| | |chain_inv|chain_inv|].
  1, 2: intros [[[c0 c1] c2] c3]; cbn; tauto.
  intros e e' He He'. apply law_ret2; intros [[[c0 c1] c2] c3] [[[[_ <-] <-] <-] <-]; reflexivity.
Qed.
Lemma three_answers : forall n, 0 <= n -> answers (newThreeRandCoins n) (all3 (upto n)).
Proof.
  intros n Hn. pose proof (fresh_answers n Hn) as F. unfold newThreeRandCoins.
  do 3 (eapply answers_bind; [exact F|]; intros ? ?). apply answers_ret. cbn. auto.
Qed.
Lemma four_answers : forall n, 0 <= n -> answers (newFourRandCoins n) (all4 (upto n)).
Proof.
  intros n Hn. pose proof (fresh_answers n Hn) as F. unfold newFourRandCoins.
  do 4 (eapply answers_bind; [exact F|]; intros ? ?). apply answers_ret. cbn. auto.
Qed.

Theorem C78_coins : forall n, 0 <= n ->
  answers (freshRandCoin n) (upto n) /\ uniform (freshRandCoin n) (upto n) /\
  answers (newThreeRandCoins n) (all3 (upto n)) /\ uniform (newThreeRandCoins n) (all3 (upto n)) /\
  answers (newFourRandCoins n) (all4 (upto n)) /\ uniform (newFourRandCoins n) (all4 (upto n)).
Proof.
  intros n Hn. split; [now apply fresh_answers|]. split; [now apply law_uniform, fresh_law|]. split; [now apply three_answers|].
  split; [now apply law_uniform, three_law|]. split; [now apply four_answers|now apply law_uniform, four_law].
Qed.
Example C78_coins_case : newThreeRandCoins 5 "123"%string = Ret (Some ((1, 2, 3), EmptyString)) /\ newThreeRandCoins 5 "127"%string = Ret None /\
  newThreeRandCoins 5 "125"%string = Ret (Some ((1, 2, 5), EmptyString)) /\ all3 (upto 5) (1, 2, 5).
Proof. split; [vm_compute; reflexivity|]. split; [vm_compute; reflexivity|]. split; [vm_compute; reflexivity|]. cbn. unfold upto. lia. Qed.

(** the ranges stated in the comments of zkaop.go:135-139 and range_proof.go *)
Definition aop_coin_ranges (N : Z) (k : aop_coins) : Prop :=
  all3 (upto N) (ac_r3 k) /\ all3 (upto (2 ^ (4096 + 2 * 128))) (ac_m3 k) /\
  all3 (upto (2 ^ (2 * 128) * N)) (ac_s3 k) /\ upto (2 ^ (4096 / 2 + 2 * 128) * N) (ac_s k).
Definition rp_coin_ranges (N : Z) (k : rp_coins) : Prop :=
  all3 (upto N) (rc_r3 k) /\ all4 (upto (2 ^ (4096 + 2 * 128))) (rc_m4 k) /\
  all4 (upto (2 ^ (2 * 128) * N)) (rc_s4 k) /\ upto (2 ^ (4096 + 2 * 128) * N) (rc_sigma k).

Lemma mLmt_val : mLmt 4096 = 2 ^ (4096 + 2 * 128).
Proof. reflexivity. Qed.
Lemma sLmt_val : forall pp, sLmt pp = 2 ^ (2 * 128) * ppN pp.
Proof. intros pp. unfold sLmt. f_equal. Qed.
Lemma sLmt_shift : forall pp B, 0 <= B -> Z.shiftl (sLmt pp) B = 2 ^ (B + 2 * 128) * ppN pp.
Proof. intros pp B HB. rewrite Z.shiftl_mul_pow2, sLmt_val, Z.pow_add_r by lia. ring. Qed.

Theorem C78_AoP_coins : forall pp, 0 < ppN pp ->
  answers (aop_draw pp) (aop_coin_ranges (ppN pp)) /\ uniform (aop_draw pp) (aop_coin_ranges (ppN pp)).
Proof.
  intros pp HN. unfold aop_draw, zkAoPB. rewrite mLmt_val, sLmt_shift, sLmt_val by (change (4096 / 2) with 2048; lia).
  set (N := ppN pp) in *. unfold aop_coin_ranges. 
  assert (PM : 0 <= 2 ^ (4096 + 2 * 128)) by (apply Z.pow_nonneg; lia). set (M := 2 ^ (4096 + 2 * 128)) in *. clearbody M.
  assert (PS : 0 <= 2 ^ (2 * 128) * N) by (apply Z.mul_nonneg_nonneg; [apply Z.pow_nonneg|]; lia). set (S := 2 ^ (2 * 128) * N) in *. clearbody S.
  assert (PT : 0 <= 2 ^ (4096 / 2 + 2 * 128) * N) by (apply Z.mul_nonneg_nonneg; [apply Z.pow_nonneg|]; lia).
  set (T := 2 ^ (4096 / 2 + 2 * 128) * N) in *. clearbody T. split.
  - eapply answers_bind; [apply (three_answers N); lia|]. intros ? ?. eapply answers_bind; [apply (three_answers M PM)|]. intros ? ?.
    eapply answers_bind; [apply (three_answers S PS)|]. intros ? ?. eapply answers_bind; [apply (fresh_answers T PT)|]. intros ? ?.
    apply answers_ret. cbn [ac_r3 ac_m3 ac_s3 ac_s]. auto.
  - apply law_uniform.
    apply (law_bind2 _ _ _ (all3 (upto N)) _ _ _ _ ac_r3 ac_r3); [apply three_law; lia| | |chain_inv|chain_inv|]; try tauto. intros a a' Ha Ha'.
    apply (law_bind2 _ _ _ (all3 (upto M)) _ _ _ _ ac_m3 ac_m3); [apply three_law; lia| | |chain_inv|chain_inv|]; try tauto. intros b b' Hb Hb'.
    apply (law_bind2 _ _ _ (all3 (upto S)) _ _ _ _ ac_s3 ac_s3); [apply three_law; lia| | |chain_inv|chain_inv|]; try tauto. intros c c' Hc Hc'.
    apply (law_bind2 _ _ _ (upto T) _ _ _ _ ac_s ac_s); [apply fresh_law; lia| | |chain_inv|chain_inv|]; try tauto. intros e e' He He'.
    apply law_ret2; intros [q0 q1 q2 q3]; cbn [ac_r3 ac_m3 ac_s3 ac_s]; intros [[[[_ <-] <-] <-] <-]; reflexivity.
Qed.
Theorem C78_RP_coins : forall pp, 0 < ppN pp ->
  answers (rp_draw pp) (rp_coin_ranges (ppN pp)) /\ uniform (rp_draw pp) (rp_coin_ranges (ppN pp)).
Proof.
  intros pp HN. unfold rp_draw, rpB. rewrite mLmt_val, sLmt_shift, sLmt_val by lia.
  set (N := ppN pp) in *. unfold rp_coin_ranges.
  assert (PM : 0 <= 2 ^ (4096 + 2 * 128)) by (apply Z.pow_nonneg; lia).
  assert (PS : 0 <= 2 ^ (2 * 128) * N) by (apply Z.mul_nonneg_nonneg; [apply Z.pow_nonneg|]; lia). set (S := 2 ^ (2 * 128) * N) in *. clearbody S.
  assert (PT : 0 <= 2 ^ (4096 + 2 * 128) * N) by (apply Z.mul_nonneg_nonneg; [apply Z.pow_nonneg|]; lia).
  set (T := 2 ^ (4096 + 2 * 128) * N) in *. clearbody T. set (M := 2 ^ (4096 + 2 * 128)) in *. clearbody M. split.
  - eapply answers_bind; [apply (three_answers N); lia|]. intros ? ?. eapply answers_bind; [apply (four_answers M PM)|]. intros ? ?.
    eapply answers_bind; [apply (four_answers S PS)|]. intros ? ?. eapply answers_bind; [apply (fresh_answers T PT)|]. intros ? ?.
    apply answers_ret. cbn [rc_r3 rc_m4 rc_s4 rc_sigma]. auto.
  - apply law_uniform.
    apply (law_bind2 _ _ _ (all3 (upto N)) _ _ _ _ rc_r3 rc_r3); [apply three_law; lia| | |chain_inv|chain_inv|]; try tauto. intros a a' Ha Ha'.
    apply (law_bind2 _ _ _ (all4 (upto M)) _ _ _ _ rc_m4 rc_m4); [apply four_law; lia| | |chain_inv|chain_inv|]; try tauto. intros b b' Hb Hb'.
    apply (law_bind2 _ _ _ (all4 (upto S)) _ _ _ _ rc_s4 rc_s4); [apply four_law; lia| | |chain_inv|chain_inv|]; try tauto. intros c c' Hc Hc'.
    apply (law_bind2 _ _ _ (upto T) _ _ _ _ rc_sigma rc_sigma); [apply fresh_law; lia| | |chain_inv|chain_inv|]; try tauto. intros e e' He He'.
    apply law_ret2; intros [q0 q1 q2 q3]; cbn [rc_r3 rc_m4 rc_s4 rc_sigma]; intros [[[[_ <-] <-] <-] <-]; reflexivity.
Qed.
(** k, rhox and rhok of the zero-knowledge proof: independent and uniform on [0, N * 2^254) *)
Theorem C78_ZKPoKE_coins : forall pp, 0 < ppN pp ->
  let V := all3 (fun v => 0 <= v < ppN pp * 2 ^ 254) in answers (zkpoke_draw pp) V /\ uniform (zkpoke_draw pp) V.
Proof.
  intros pp HN V. unfold zkpoke_draw. assert (EB : zkpoke_coin_bound pp = ppN pp * 2 ^ 254) by (unfold zkpoke_coin_bound; rewrite Z.shiftl_mul_pow2 by lia; reflexivity).
  assert (PB : 0 < ppN pp * 2 ^ 254) by (apply Z.mul_pos_pos; [|apply Z.pow_pos_nonneg]; lia).
  rewrite EB. subst V. set (B := ppN pp * 2 ^ 254) in *. clearbody B. set (v := fun v => 0 <= v < B).
  pose proof (rand_law B PB) as F. fold v in F. set (d := fun src => rand_Int src B) in *. split.
  - assert (An : answers d v) by (intros src; apply (rand_answers src B PB)). unfold Int3.
    do 3 (eapply answers_bind; [exact An|]; intros ? ?). apply answers_ret. cbn. auto.
  - apply law_uniform.
    apply (law_bind2 _ _ _ v _ _ _ _ (fun '(c0, _, _) => c0) (fun '(c0, _, _) => c0)); [exact F| | |chain_inv|chain_inv|].
    1, 2: intros [[c0 c1] c2]; cbn; tauto.
    intros a a' Ha Ha'.
    apply (law_bind2 _ _ _ v _ _ _ _ (fun '(_, c1, _) => c1) (fun '(_, c1, _) => c1)); [exact F| | |chain_inv|chain_inv|].
    1, 2: intros [[c0 c1] c2]; cbn; tauto.
    intros b b' Hb Hb'.
    apply (law_bind2 _ _ _ v _ _ _ _ (fun '(_, _, c2) => c2) (fun '(_, _, c2) => c2)); [exact F| | |chain_inv|chain_inv|].
    1, 2: intros [[c0 c1] c2]; cbn; tauto.
    intros c c' Hc Hc'. apply law_ret2; intros [[c0 c1] c2] [[[_ <-] <-] <-]; reflexivity.
Qed.
Example C78_proof_coins_case :
  let pp := {| ppN := 77; ppG := 4; ppH := 9 |} in
  let src := (fix rep (n : nat) : string := match n with O => EmptyString | S m => String "@" (rep m) end) in
  (exists k rest, aop_draw pp (src 3000%nat) = Ret (Some (k, rest)) /\ aop_coin_ranges 77 k) /\ aop_draw pp (src 100%nat) = Ret None.
Proof.
  intros pp src. split.
  - destruct (C78_AoP_coins pp ltac:(reflexivity)) as [An _]. destruct (An (src 3000%nat)) as [E|E].
    + exfalso. revert E. vm_compute. discriminate.
    + destruct E as (k & rest & E & V). exists k, rest. split; assumption.
  - vm_compute. reflexivity.
Qed.

Print Assumptions C78_Int.
Print Assumptions C78_Int_uniform.
Print Assumptions C78_Int_rarely_fails.
Print Assumptions C78_GenRandomizer.
Print Assumptions C78_universal_hash.
Print Assumptions C78_coins.
Print Assumptions C78_AoP_coins.
Print Assumptions C78_RP_coins.
Print Assumptions C78_ZKPoKE_coins.
