(** Proofs about proof/three_square.go. *)
From Coq Require Import ZArith Bool Lia List Permutation Znumtheory Arith.
From Verif Require Import GoBig GoBigFacts Sched ListUpd SquaresModel.
Import ListNotations.
Open Scope Z_scope.

(** ** sorted tuples *)
Lemma cmp_swap_perm : forall a b, let (x, y) := cmp_swap a b in Permutation [a; b] [x; y] /\ y <= x.
Proof.
  intros a b. unfold cmp_swap. destruct (Z.ltb_spec a b); split; try lia; [apply perm_swap|apply Permutation_refl].
Qed.
Ltac swaps :=
  repeat match goal with
  | |- context [cmp_swap ?a ?b] => unfold cmp_swap at 1; destruct (Z.ltb_spec a b)
  end.

Lemma NewInt3_sorted : forall w1 w2 w3, let '(a, b, c) := NewInt3 w1 w2 w3 in 0 <= c <= b /\ b <= a.
Proof. intros. unfold NewInt3, cmp_swap. repeat (match goal with |- context [?a <? ?b] => destruct (Z.ltb_spec a b) end); lia. Qed.
Lemma NewInt4_sorted : forall w1 w2 w3 w4, let '(a, b, c, d) := NewInt4 w1 w2 w3 w4 in 0 <= d <= c /\ c <= b <= a.
Proof. intros. unfold NewInt4, cmp_swap. repeat (match goal with |- context [?a <? ?b] => destruct (Z.ltb_spec a b) end); lia. Qed.

Lemma NewInt3_perm : forall w1 w2 w3,
  let '(a, b, c) := NewInt3 w1 w2 w3 in Permutation [Z.abs w1; Z.abs w2; Z.abs w3] [a; b; c].
Proof.
  intros. unfold NewInt3. set (x := Z.abs w1). set (y := Z.abs w2). set (z := Z.abs w3).
  pose proof (cmp_swap_perm x y) as P1. destruct (cmp_swap x y) as [x1 y1].
  pose proof (cmp_swap_perm x1 z) as P2. destruct (cmp_swap x1 z) as [x2 z2].
  pose proof (cmp_swap_perm y1 z2) as P3. destruct (cmp_swap y1 z2) as [y3 z3].
  destruct P1 as [P1 _], P2 as [P2 _], P3 as [P3 _].
  transitivity [x1; y1; z]. { apply (Permutation_app_tail [z] P1). }
  transitivity [y1; x1; z]. { apply perm_swap. }
  transitivity [y1; x2; z2]. { apply (Permutation_app_head [y1] P2). }
  transitivity [x2; y1; z2]. { apply perm_swap. }
  apply (Permutation_app_head [x2] P3).
Qed.
Lemma NewInt4_perm : forall w1 w2 w3 w4,
  let '(a, b, c, d) := NewInt4 w1 w2 w3 w4 in Permutation [Z.abs w1; Z.abs w2; Z.abs w3; Z.abs w4] [a; b; c; d].
Proof.
  intros. unfold NewInt4. set (x := Z.abs w1). set (y := Z.abs w2). set (z := Z.abs w3). set (t := Z.abs w4).
  pose proof (cmp_swap_perm x y) as P1. destruct (cmp_swap x y) as [x1 y1].
  pose proof (cmp_swap_perm x1 z) as P2. destruct (cmp_swap x1 z) as [x2 z2].
  pose proof (cmp_swap_perm x2 t) as P3. destruct (cmp_swap x2 t) as [x3 t3].
  pose proof (cmp_swap_perm y1 z2) as P4. destruct (cmp_swap y1 z2) as [y4 z4].
  pose proof (cmp_swap_perm y4 t3) as P5. destruct (cmp_swap y4 t3) as [y5 t5].
  pose proof (cmp_swap_perm z4 t5) as P6. destruct (cmp_swap z4 t5) as [z6 t6].
  destruct P1 as [P1 _], P2 as [P2 _], P3 as [P3 _], P4 as [P4 _], P5 as [P5 _], P6 as [P6 _].
  transitivity [x1; y1; z; t]. { apply (Permutation_app_tail [z; t] P1). }
  transitivity [y1; x1; z; t]. { apply perm_swap. }
  transitivity [y1; x2; z2; t]. { apply (Permutation_app_head [y1]), (Permutation_app_tail [t] P2). }
  transitivity [y1; z2; x2; t]. { apply perm_skip, perm_swap. }
  transitivity [y1; z2; x3; t3]. { apply (Permutation_app_head [y1; z2] P3). }
  transitivity [x3; y1; z2; t3]. { change [y1; z2; x3; t3] with ([y1; z2] ++ x3 :: [t3]). symmetry. apply (Permutation_middle [y1; z2] [t3] x3). }
  apply perm_skip.
  transitivity [y4; z4; t3]. { apply (Permutation_app_tail [t3] P4). }
  transitivity [z4; y4; t3]. { apply perm_swap. }
  transitivity [z4; y5; t5]. { apply (Permutation_app_head [z4] P5). }
  transitivity [y5; z4; t5]. { apply perm_swap. }
  apply (Permutation_app_head [y5] P6).
Qed.

Definition sum_sq (l : list Z) : Z := fold_right (fun x acc => x * x + acc) 0 l.
Lemma sum_sq_perm : forall l1 l2, Permutation l1 l2 -> sum_sq l1 = sum_sq l2.
Proof. induction 1; cbn [sum_sq fold_right] in *; fold sum_sq in *; unfold sum_sq in *; try lia. Qed.

(** ** Gaussian integers *)
Definition gdivides (g z : gaussian) : Prop := exists k, z = gmul g k.
Definition gcd_spec (GCD : gaussian -> gaussian -> gaussian) : Prop :=
  forall a b, gdivides (GCD a b) a /\ gdivides (GCD a b) b /\
    exists k l, GCD a b = gadd (gmul k a) (gmul l b).

Lemma g_eq : forall a b c d : Z, a = c -> b = d -> (a, b) = (c, d).
Proof. congruence. Qed.
Ltac gring := unfold gadd, gsub, gmul, gnorm in *; cbn [fst snd] in *; apply g_eq; ring.

Lemma gnorm_zero : forall b, gnorm b = 0 -> b = (0, 0).
Proof. intros [x y] H. unfold gnorm in H. cbn [fst snd] in H. f_equal; nia. Qed.
Lemma gnorm_nonneg : forall b, 0 <= gnorm b.
Proof. intros [x y]. unfold gnorm. cbn [fst snd]. nia. Qed.
Lemma gnorm_mul : forall a b, gnorm (gmul a b) = gnorm a * gnorm b.
Proof. intros [a b] [c d]. unfold gnorm, gmul. cbn [fst snd]. ring. Qed.

Lemma round_div_bound : forall x n, 0 < n -> - n <= 2 * (x - n * round_div x n) <= n.
Proof.
  intros x n Hn. unfold round_div. pose proof (Z.div_mod (2 * x + n) (2 * n) ltac:(lia)).
  pose proof (Z.mod_pos_bound (2 * x + n) (2 * n) ltac:(lia)). lia.
Qed.
Lemma rem_norm : forall a b, 0 < gnorm b -> 2 * gnorm (gsub a (gmul b (gquot a b))) <= gnorm b.
Proof.
  intros [a1 a2] [b1 b2] Hb. set (n := gnorm (b1, b2)) in *.
  unfold gquot. cbn [fst snd]. fold n. 
  set (X := a1 * b1 + a2 * b2). set (Y := a2 * b1 - a1 * b2).
  pose proof (round_div_bound X n Hb) as HX. pose proof (round_div_bound Y n Hb) as HY.
  set (q1 := round_div X n) in *. set (q2 := round_div Y n) in *.
  set (r := gsub (a1, a2) (gmul (b1, b2) (q1, q2))).
  assert (E : gnorm r * n = (X - n * q1) * (X - n * q1) + (Y - n * q2) * (Y - n * q2)).
  { unfold r, X, Y, n, gnorm, gsub, gmul. cbn [fst snd]. ring. }
  set (dx := X - n * q1) in *. set (dy := Y - n * q2) in *. clearbody dx dy n r. clear -E HX HY Hb.
  assert (4 * (dx * dx) <= n * n) by nia. assert (4 * (dy * dy) <= n * n) by nia.
  assert (2 * (gnorm r * n) <= n * n) by lia. nia.
Qed.
Lemma euclid_spec : forall fuel a b, gnorm b < 2 ^ (Z.of_nat fuel - 1) \/ gnorm b = 0 -> (0 < fuel)%nat ->
  gdivides (euclid fuel a b) a /\ gdivides (euclid fuel a b) b /\
  exists k l, euclid fuel a b = gadd (gmul k a) (gmul l b).
Proof.
  induction fuel as [|fuel IH]; intros a b Hn Hf; [lia|]. cbn [euclid].
  destruct (Z.eqb_spec (gnorm b) 0) as [E|E].
  - apply gnorm_zero in E. subst b. split; [exists (1, 0); destruct a; gring|]. split; [exists (0, 0); destruct a; gring|].
    exists (1, 0), (0, 0). destruct a; gring.
  - destruct Hn as [Hn|Hn]; [|congruence]. pose proof (gnorm_nonneg b) as Hb0.
    set (r := gsub a (gmul b (gquot a b))). pose proof (rem_norm a b ltac:(lia)) as Hr. fold r in Hr.
    destruct fuel as [|fuel]; [replace (Z.of_nat 1 - 1) with 0 in Hn by lia; cbn in Hn; lia|].
    destruct (IH b r) as (D1 & D2 & (k & l & Hkl)); [|lia|].
    + left. replace (Z.of_nat (S (S fuel)) - 1) with (Z.succ (Z.of_nat (S fuel) - 1)) in Hn by lia.
      rewrite Z.pow_succ_r in Hn by lia. lia.
    + set (g := euclid (S fuel) b r) in *. clearbody g.
      split; [|split].
      * destruct D1 as [k1 E1], D2 as [k2 E2]. exists (gadd k2 (gmul k1 (gquot a b))).
        assert (Ea : a = gadd r (gmul b (gquot a b))). { unfold r. destruct a, b. cbn [gquot]. generalize (gquot (z, z0) (z1, z2)). intros []. gring. }
        rewrite Ea at 1. rewrite E1 at 1. rewrite E2. generalize (gquot a b). intros []. destruct g, k1, k2. gring.
      * exact D1.
      * exists l, (gsub k (gmul l (gquot a b))). rewrite Hkl. unfold r. generalize (gquot a b). intros []. destruct a, b, k, l. gring.
Qed.
Lemma gauss_gcd_spec : gcd_spec gauss_gcd.
Proof.
  intros a b. unfold gauss_gcd. apply euclid_spec; [|lia].
  destruct (Z.eq_dec (gnorm b) 0) as [|H]; [now right|]. left. pose proof (gnorm_nonneg b).
  pose proof (Z.log2_spec (gnorm b) ltac:(lia)) as [_ L]. pose proof (Z.log2_nonneg (gnorm b)).
  replace (Z.of_nat (S (Z.to_nat (Z.log2 (gnorm b) + 1))) - 1) with (Z.succ (Z.log2 (gnorm b))) by lia. exact L.
Qed.

(** the gcd of s+i and p has norm p whenever p divides s^2+1: no primality needed *)
Lemma gcd_norm : forall GCD, gcd_spec GCD -> forall s p, 0 < p -> (p | s * s + 1) ->
  gnorm (GCD (s, 1) (p, 0)) = p.
Proof.
  intros GCD HG s p Hp [t Ht]. destruct (HG (s, 1) (p, 0)) as (D1 & D2 & ([k1 k2] & [l1 l2] & E)).
  destruct (GCD (s, 1) (p, 0)) as [a b]. destruct D1 as [[c d] D1]. destruct D2 as [[e f] D2].
  unfold gmul, gadd, gnorm in *. cbn [fst snd] in *.
  assert (D1a : a * d + b * c = 1) by (clear -D1; congruence).
  assert (D2a : p = a * e - b * f) by (clear -D2; congruence).
  assert (D2b : 0 = a * f + b * e) by (clear -D2; congruence).
  assert (Ea : a = (k1 * s - k2 * 1) + (l1 * p - l2 * 0)) by (clear -E; congruence).
  assert (Eb : b = (k1 * 1 + k2 * s) + (l1 * 0 + l2 * p)) by (clear -E; congruence).
  clear D1 D2 E.
  (* p divides the norm *)
  assert (P1 : (p | a * a + b * b)).
  { assert (Hab : exists w, a = b * s + w * p). { exists (l1 - l2 * s - k2 * t). assert (Hs : s * s = t * p - 1) by (clear -Ht; lia). rewrite Ea, Eb. ring [Hs]. }
    destruct Hab as [w ->]. exists (b * b * t + 2 * b * s * w + w * w * p).
    replace ((b * s + w * p) * (b * s + w * p) + b * b) with (b * b * (s * s + 1) + 2 * b * s * w * p + w * w * p * p) by ring.
    rewrite Ht. ring. }
  (* the norm divides p *)
  assert (P2 : (a * a + b * b | p)).
  { assert (R : rel_prime a b). { apply bezout_rel_prime. apply (Bezout_intro a b 1 d c). clear -D1a. lia. }
    assert (Ae : (a | e)). { apply Gauss with b; [|assumption]. exists (- f). lia. }
    destruct Ae as [m ->]. destruct (Z.eq_dec a 0) as [->|Ha].
    - assert (Hb : b * c = 1) by lia. exists (- f * b * c * c). rewrite D2a. 
      replace (0 * (m * 0) - b * f) with (- f * b * 1) by ring. 
      replace (- f * b * c * c * (0 * 0 + b * b)) with (- f * b * ((b * c) * (b * c))) by ring. rewrite Hb. ring.
    - assert (f = - b * m). { apply (Z.mul_reg_l _ _ a Ha). lia. } subst f. exists m. rewrite D2a. ring. }
  apply Z.divide_antisym_nonneg; [apply Z.add_nonneg_nonneg; apply Z.square_nonneg|clear -Hp; lia|assumption|assumption].
Qed.

(** ** findTwoSquares *)
Lemma mod4_exp : forall p, p mod 4 = 1 -> Z.shiftr (p - 1) 1 = 2 * Z.shiftr (Z.shiftr (p - 1) 1) 1.
Proof.
  intros p H. rewrite !Z.shiftr_div_pow2 by lia. change (2 ^ 1) with 2.
  pose proof (Z.div_mod p 4 ltac:(lia)) as E. rewrite H in E. set (q := p / 4) in *.
  replace (p - 1) with (2 * q * 2) by lia. rewrite Z.div_mul by lia.
  rewrite (Z.mul_comm 2 q), Z.div_mul by lia. ring.
Qed.

Section TS.
Variable GCD : gaussian -> gaussian -> gaussian.
Variable is_prime : Z -> bool.

Lemma find_loop_norm : gcd_spec GCD -> forall k p draws i g, 2 <= p -> p mod 4 = 1 ->
  find_loop GCD k p draws i = Some g -> gnorm g = p.
Proof.
  intros HG. induction k as [|k IH]; intros p draws i g Hp H4 H; cbn [find_loop] in H; [discriminate|].
  set (u := Z.shiftl (draws i mod Z.shiftr p 1) 1) in *. set (e := Z.shiftr (p - 1) 1) in *.
  destruct (Z.eqb_spec (exp_recv 0 u e p) (p - 1)) as [E|E]; [|now apply IH in H].
  injection H as <-. unfold gaussianIntGCD. apply gcd_norm; [assumption|lia|].
  pose proof (mod4_exp p H4) as E2. fold e in E2. set (h := Z.shiftr e 1) in *.
  assert (Hh : 0 <= h). { unfold h, e. apply Z.shiftr_nonneg, Z.shiftr_nonneg. lia. }
  rewrite E2 in E. rewrite !exp_recv_nonneg in * by lia.
  apply Z.mod_divide; [lia|]. rewrite <- Z.add_mod_idemp_l, <- Z.mul_mod, <- Z.pow_add_r by lia.
  replace (h + h) with (2 * h) by ring. rewrite E. replace (p - 1 + 1) with (1 * p) by ring. apply Z.mod_mul. lia.
Qed.
Lemma findTwoSquares_norm : gcd_spec GCD -> forall p draws g, 2 <= p -> p mod 4 = 1 ->
  findTwoSquares GCD p draws = Some g -> gnorm g = p.
Proof. intros. eapply find_loop_norm; eauto. Qed.

(** ** exactly which values can be returned *)
Definition cand_x (n : Z) (cnt : Z) : Z := Z.shiftl (Z.shiftr (Z.sqrt n) 1 - cnt) 1.
Definition cand_p (n cnt : Z) : Z := n - cand_x n cnt * cand_x n cnt.
Definition cand_ok (n cnt : Z) : Prop := 0 <= Z.shiftr (Z.sqrt n) 1 - cnt /\ 2 <= cand_p n cnt.
Definition cand_skip (n cnt : Z) : bool := (bitLenThreshold <? bit_len (cand_p n cnt)) && negb (is_prime (cand_p n cnt)).
(** routine k of R gets to its j-th candidate *)
Definition reached (n : Z) (R k j : nat) : Prop :=
  forall i, (i < j)%nat -> cand_ok n (Z.of_nat k + Z.of_nat i * Z.of_nat R) /\
                           cand_skip n (Z.of_nat k + Z.of_nat i * Z.of_nat R) = true.
Definition finds (n : Z) (R : nat) (v : Int3) : Prop :=
  exists k j draws Re Im, (k < R)%nat /\ reached n R k j /\
    let cnt := Z.of_nat k + Z.of_nat j * Z.of_nat R in
    cand_ok n cnt /\ cand_skip n cnt = false /\
    findTwoSquares GCD (cand_p n cnt) draws = Some (Re, Im) /\ isValidGaussianIntGCD (Some (Re, Im)) = true /\
    v = NewInt3 (cand_x n cnt) Re Im.

Definition rinv (n : Z) (R k : nat) (r : routine) : Prop :=
  match r with
  | RLoop cnt => exists j, cnt = Z.of_nat k + Z.of_nat j * Z.of_nat R /\ reached n R k j
  | RFind x p => exists j, reached n R k j /\
      let cnt := Z.of_nat k + Z.of_nat j * Z.of_nat R in
      cand_ok n cnt /\ cand_skip n cnt = false /\ x = cand_x n cnt /\ p = cand_p n cnt
  | ROffer v => finds n R v
  | RGone => True
  end.
Record tinv (n : Z) (R : nat) (s : tsstate) : Prop := {
  ti_n : q_n s = n; ti_rt : q_rt s = Z.shiftr (Z.sqrt n) 1; ti_R : q_R s = R;
  ti_len : (length (q_rout s) <= R)%nat;
  ti_rout : forall k r, nth_error (q_rout s) k = Some r -> rinv n R k r;
  ti_main : match q_main s with
            | MSpawn k => length (q_rout s) = k
            | MWait => True
            | MGot v | MRet v => finds n R v
            end }.

Lemma nth_error_upd : forall A (l : list A) k v i r, nth_error (upd l k v) i = Some r ->
  (i = k /\ r = v /\ (k < length l)%nat) \/ (i <> k /\ nth_error l i = Some r).
Proof.
  intros A l k v i r H. destruct (Nat.eq_dec i k) as [->|Hn].
  - left. assert (Hk : (k < length l)%nat). { apply nth_some_lt in H. now rewrite length_upd in H. }
    rewrite nth_upd_eq in H by assumption. injection H as <-. auto.
  - right. rewrite nth_upd_neq in H by auto. auto.
Qed.

Lemma loop_turn_inv : forall n R k cnt, rinv n R k (RLoop cnt) ->
  rinv n R k (loop_turn is_prime n (Z.shiftr (Z.sqrt n) 1) (Z.of_nat R) cnt).
Proof.
  intros n R k cnt (j & -> & Hr). set (cnt := Z.of_nat k + Z.of_nat j * Z.of_nat R). unfold loop_turn.
  destruct (Z.ltb_spec (Z.shiftr (Z.sqrt n) 1 - cnt) 0) as [|Hx]; [exact I|].
  fold (cand_x n cnt). fold (cand_p n cnt). destruct (Z.ltb_spec (cand_p n cnt) 2) as [|Hp]; [exact I|].
  fold (cand_skip n cnt). destruct (cand_skip n cnt) eqn:Es.
  - exists (S j). split; [unfold cnt; lia|]. intros i Hi. destruct (Nat.eq_dec i j) as [->|Hne].
    + split; [split; assumption|assumption].
    + apply Hr. lia.
  - exists j. split; [assumption|]. fold cnt. repeat split; assumption.
Qed.

Lemma ts_inv_step : forall n R s c st, tinv n R s -> ts_step GCD is_prime s c = Some st ->
  exists s', st = Ret s' /\ tinv n R s'.
Proof.
  intros n R s c st [In Irt IR Il Ir Im] H. destruct c as [|k draws]; cbn [ts_step] in H.
  - destruct (q_main s) as [k| |v|v] eqn:Em; try discriminate.
    + rewrite IR in H. destruct (Nat.ltb_spec k R) as [Hk|Hk]; injection H as <-; eexists; (split; [reflexivity|]).
      * constructor; cbn [q_n q_rt q_R q_main q_rout q_set_main q_set_rout]; try assumption.
        { rewrite app_length. cbn [length]. lia. }
        { intros i r Hi. destruct (Nat.lt_ge_cases i (length (q_rout s))) as [Hlt|Hge].
          - rewrite nth_error_app1 in Hi by assumption. auto.
          - rewrite nth_error_app2 in Hi by assumption. destruct (i - length (q_rout s))%nat as [|m] eqn:Ei.
            + injection Hi as <-. exists 0%nat. split; [lia|]. intros i' Hi'. lia.
            + cbn in Hi. destruct m; discriminate. }
        { rewrite app_length. cbn [length]. lia. }
      * constructor; cbn [q_n q_rt q_R q_main q_rout q_set_main q_set_rout]; auto.
    + injection H as <-. eexists. split; [reflexivity|]. constructor; cbn [q_n q_rt q_R q_main q_rout q_set_main]; auto.
  - assert (Upd : forall r, rinv n R k r -> forall m, 
             match m with MSpawn k => length (q_rout s) = k | MWait => True | MGot v | MRet v => finds n R v end ->
             tinv n R (q_set_main (q_set_rout s (upd (q_rout s) k r)) m)).
    { intros r Hr m Hm. constructor; cbn [q_n q_rt q_R q_main q_rout q_set_main q_set_rout]; try assumption.
      - now rewrite length_upd.
      - intros i r' Hi. apply nth_error_upd in Hi. destruct Hi as [(-> & -> & _)|[_ Hi]]; auto.
      - destruct m; auto. now rewrite length_upd. }
    assert (Upd' : forall r, rinv n R k r -> tinv n R (q_set_rout s (upd (q_rout s) k r))).
    { intros r Hr. exact (Upd r Hr (q_main s) Im). }
    destruct (nth_error (q_rout s) k) as [[cnt|x p|v|]|] eqn:Ek; try discriminate.
    + destruct (q_main s); injection H as <-; eexists; (split; [reflexivity|]); apply Upd'; try exact I;
      rewrite In, Irt, IR; apply loop_turn_inv; exact (Ir _ _ Ek).
    + destruct (isValidGaussianIntGCD (findTwoSquares GCD p draws)) eqn:Ev.
      * destruct (findTwoSquares GCD p draws) as [[Re Imm]|] eqn:Ef; [|discriminate]. injection H as <-.
        eexists. split; [reflexivity|]. apply Upd'. destruct (Ir _ _ Ek) as (j & Hr & H1 & H2 & -> & ->).
        exists k, j, draws, Re, Imm. split; [apply nth_some_lt in Ek; lia|].
        split; [exact Hr|]. cbv zeta. split; [exact H1|]. split; [exact H2|]. split; [exact Ef|]. split; [exact Ev|reflexivity].
      * injection H as <-. eexists. split; [reflexivity|]. constructor; auto.
    + pose proof (Ir _ _ Ek) as Hv. cbn [rinv] in Hv.
      destruct (q_main s) eqn:Em; injection H as <-; eexists; (split; [reflexivity|]);
      solve [apply (Upd RGone I (MGot v) Hv) | apply (Upd' RGone I)].
Qed.

Lemma ts_inv_run : forall n R sched s st, tinv n R s -> run (ts_step GCD is_prime) (Ret s) sched = Some st ->
  exists s', st = Ret s' /\ tinv n R s'.
Proof.
  intros n R. induction sched as [|c sched IH]; intros s st HI H; cbn [run] in H.
  - injection H as <-. eauto.
  - destruct (ts_step GCD is_prime s c) as [st1|] eqn:E; [|discriminate].
    destruct (ts_inv_step _ _ _ _ _ HI E) as (s1 & -> & HI1). eapply IH; eassumption.
Qed.

Definition ts_start (n : Z) (R : nat) : tsstate :=
  {| q_n := n; q_rt := Z.shiftr (Z.sqrt n) 1; q_R := R; q_main := MSpawn 0; q_rout := [] |}.
Lemma ts_start_inv : forall n R, tinv n R (ts_start n R).
Proof.
  intros. constructor; cbn; auto; try lia. intros k r H. destruct k; discriminate.
Qed.

Lemma run_app : forall S C (step : S -> C -> option (outcome S)) l1 l2 s s',
  run step (Ret s) l1 = Some (Ret s') -> run step (Ret s) (l1 ++ l2) = run step (Ret s') l2.
Proof.
  intros S C step. induction l1 as [|c l1 IH]; intros l2 s s' H; cbn [run app] in *.
  - now injection H as ->.
  - destruct (step s c) as [[t| |]|]; try discriminate; [now apply IH| |]; destruct l1; discriminate.
Qed.

(** all routines spawned *)
Lemma spawn_run : forall n R k, (k <= R)%nat ->
  run (ts_step GCD is_prime) (Ret (ts_start n R)) (repeat QMain k) =
  Some (Ret (q_set_main (q_set_rout (ts_start n R) (map (fun i => RLoop (Z.of_nat i)) (seq 0 k))) (MSpawn k))).
Proof.
  intros n R. induction k as [|k IH]; intros Hk; [reflexivity|].
  replace (repeat QMain (S k)) with (repeat QMain k ++ [QMain]).
  2:{ rewrite <- repeat_cons. reflexivity. }
  rewrite (run_app _ _ _ _ _ _ _ (IH ltac:(lia))). cbn [run ts_step q_main q_set_main q_R q_set_rout ts_start q_rout].
  rewrite (proj2 (Nat.ltb_lt k R)) by lia. rewrite seq_S, map_app. reflexivity.
Qed.

Lemma upd_same : forall A (l : list A) k x, nth_error l k = Some x -> upd l k x = l.
Proof.
  induction l as [|a l IH]; intros [|k] x H; cbn in *; try discriminate; [now injection H as ->|]. f_equal. auto.
Qed.

(** routine k of a waiting main works through the skipped candidates *)
Lemma skip_run : forall n R k rs m, (forall v, m <> MRet v) -> forall j, reached n R k j ->
  nth_error rs k = Some (RLoop (Z.of_nat k)) ->
  run (ts_step GCD is_prime) (Ret (q_set_main (q_set_rout (ts_start n R) rs) m)) (repeat (QR k (fun _ => 0)) j) =
  Some (Ret (q_set_main (q_set_rout (ts_start n R) (upd rs k (RLoop (Z.of_nat k + Z.of_nat j * Z.of_nat R)))) m)).
Proof.
  intros n R k rs m Hm. induction j as [|j IH]; intros Hr Hk.
  - cbn [repeat run]. rewrite Z.mul_0_l, Z.add_0_r, upd_same by assumption. reflexivity.
  - replace (repeat (QR k (fun _ => 0)) (S j)) with (repeat (QR k (fun _ => 0)) j ++ [QR k (fun _ => 0)]).
    2:{ rewrite <- repeat_cons. reflexivity. }
    assert (Hlen : (k < length rs)%nat) by (now apply nth_some_lt in Hk).
    rewrite (run_app _ _ _ _ _ _ _ (IH ltac:(intros i Hi; apply Hr; lia) Hk)).
    cbn [run ts_step q_rout q_set_main q_set_rout q_n q_rt q_R q_main ts_start].
    rewrite nth_upd_eq by assumption. set (cnt := Z.of_nat k + Z.of_nat j * Z.of_nat R).
    destruct (Hr j ltac:(lia)) as [[Hx Hp] Hs]. fold cnt in Hx, Hp, Hs.
    assert (EL : loop_turn is_prime n (Z.shiftr (Z.sqrt n) 1) (Z.of_nat R) cnt = RLoop (cnt + Z.of_nat R)).
    { unfold loop_turn. rewrite (proj2 (Z.ltb_ge _ _)) by assumption. fold (cand_x n cnt). fold (cand_p n cnt).
      rewrite (proj2 (Z.ltb_ge _ _)) by assumption. fold (cand_skip n cnt). now rewrite Hs. }
    rewrite EL. replace (cnt + Z.of_nat R) with (Z.of_nat k + Z.of_nat (S j) * Z.of_nat R) by (unfold cnt; lia).
    assert (UU : forall A (l : list A) i a b, upd (upd l i a) i b = upd l i b).
    { clear. induction l as [|x l IH]; intros [|i] a b; cbn; auto. now rewrite IH. }
    rewrite UU. destruct m; try reflexivity. now specialize (Hm v).
Qed.

Definition found_sched (k j : nat) (draws : nat -> Z) : list tschoice :=
  repeat (QR k (fun _ => 0)) j ++ [QR k (fun _ => 0); QR k draws].

Lemma find_run : forall n R k j draws Re Im rs m, (forall v, m <> MRet v) ->
  nth_error rs k = Some (RLoop (Z.of_nat k)) -> reached n R k j ->
  let cnt := Z.of_nat k + Z.of_nat j * Z.of_nat R in
  cand_ok n cnt -> cand_skip n cnt = false ->
  findTwoSquares GCD (cand_p n cnt) draws = Some (Re, Im) -> isValidGaussianIntGCD (Some (Re, Im)) = true ->
  run (ts_step GCD is_prime) (Ret (q_set_main (q_set_rout (ts_start n R) rs) m)) (found_sched k j draws) =
  Some (Ret (q_set_main (q_set_rout (ts_start n R) (upd rs k (ROffer (NewInt3 (cand_x n cnt) Re Im)))) m)).
Proof.
  intros n R k j draws Re Im rs m Hm Hk Hr cnt [Hx Hp] Hs Ef Ev. unfold found_sched.
  assert (Hlen : (k < length rs)%nat) by (now apply nth_some_lt in Hk).
  rewrite (run_app _ _ _ _ _ _ _ (skip_run n R k rs m Hm j Hr Hk)). fold cnt.
  assert (UU : forall A (l : list A) i a b, upd (upd l i a) i b = upd l i b).
  { clear. induction l as [|x l IH]; intros [|i] a b; cbn; auto. now rewrite IH. }
  assert (EL : loop_turn is_prime n (Z.shiftr (Z.sqrt n) 1) (Z.of_nat R) cnt = RFind (cand_x n cnt) (cand_p n cnt)).
  { unfold loop_turn. rewrite (proj2 (Z.ltb_ge _ _)) by assumption. fold (cand_x n cnt). fold (cand_p n cnt).
    rewrite (proj2 (Z.ltb_ge _ _)) by assumption. fold (cand_skip n cnt). now rewrite Hs. }
  assert (S1 : ts_step GCD is_prime (q_set_main (q_set_rout (ts_start n R) (upd rs k (RLoop cnt))) m) (QR k (fun _ => 0)) =
    Some (Ret (q_set_main (q_set_rout (ts_start n R) (upd rs k (RFind (cand_x n cnt) (cand_p n cnt)))) m))).
  { cbn [ts_step q_rout q_set_main q_set_rout q_n q_rt q_R q_main ts_start]. rewrite nth_upd_eq, EL, UU by assumption.
    destruct m; try reflexivity. now specialize (Hm v). }
  cbn [run]. rewrite S1.
  assert (S2 : ts_step GCD is_prime (q_set_main (q_set_rout (ts_start n R) (upd rs k (RFind (cand_x n cnt) (cand_p n cnt)))) m) (QR k draws) =
    Some (Ret (q_set_main (q_set_rout (ts_start n R) (upd rs k (ROffer (NewInt3 (cand_x n cnt) Re Im)))) m))).
  { cbn [ts_step q_rout q_set_main q_set_rout q_n q_rt q_R q_main ts_start]. rewrite nth_upd_eq, Ef, Ev, UU by assumption. reflexivity. }
  rewrite S2. reflexivity.
Qed.

Lemma nth_seq_routines : forall R k, (k < R)%nat ->
  nth_error (map (fun i => RLoop (Z.of_nat i)) (seq 0 R)) k = Some (RLoop (Z.of_nat k)).
Proof.
  intros R k Hk. rewrite nth_error_map, (nth_error_nth' _ 0%nat) by (rewrite seq_length; lia).
  cbn [option_map]. now rewrite seq_nth by assumption.
Qed.

Lemma ts_can_return_iff : forall n R v,
  can_return (ts_step GCD is_prime) ts_ret (ts_start n R) v <-> finds n R v.
Proof.
  intros n R v. split.
  - intros (sched & s & Hr & Hv). destruct (ts_inv_run n R _ _ _ (ts_start_inv n R) Hr) as (s' & E & I).
    injection E as <-. pose proof (ti_main _ _ _ I) as Hm. unfold ts_ret in Hv.
    destruct (q_main s); try discriminate. now injection Hv as <-.
  - intros (k & j & draws & Re & Imm & Hk & Hr & Hok & Hs & Ef & Ev & ->).
    set (cnt := Z.of_nat k + Z.of_nat j * Z.of_nat R) in *.
    set (rs := map (fun i => RLoop (Z.of_nat i)) (seq 0 R)).
    exists (repeat QMain R ++ [QMain] ++ found_sched k j draws ++ [QR k draws; QMain]). eexists.
    rewrite (run_app _ _ _ _ _ _ _ (spawn_run n R R (le_n _))). fold rs.
    assert (E1 : run (ts_step GCD is_prime) (Ret (q_set_main (q_set_rout (ts_start n R) rs) (MSpawn R))) [QMain] =
                 Some (Ret (q_set_main (q_set_rout (ts_start n R) rs) MWait))).
    { cbn [run ts_step q_main q_set_main q_set_rout q_R ts_start]. now rewrite Nat.ltb_irrefl. }
    rewrite (run_app _ _ _ _ _ _ _ E1).
    rewrite (run_app _ _ _ _ _ _ _ (find_run n R k j draws Re Imm rs MWait ltac:(discriminate) (nth_seq_routines R k Hk) Hr Hok Hs Ef Ev)).
    fold cnt. cbn [run ts_step q_rout q_set_main q_set_rout q_main ts_start].
    rewrite nth_upd_eq by (unfold rs; rewrite map_length, seq_length; assumption).
    cbn [q_main q_set_main]. split; reflexivity.
Qed.

Lemma ts_no_crash : forall n R, ~ can_crash (ts_step GCD is_prime) (ts_start n R).
Proof.
  intros n R [sched Hr]. destruct (ts_inv_run n R _ _ _ (ts_start_inv n R) Hr) as (s' & E & _). discriminate.
Qed.

(** ** correctness of what is found *)
Lemma finds_correct : gcd_spec GCD -> forall n R v, n mod 4 = 1 -> finds n R v ->
  let '(a, b, c) := v in a * a + b * b + c * c = n /\ 0 <= c <= b /\ b <= a.
Proof.
  intros HG n R v H4 (k & j & draws & Re & Imm & Hk & Hr & [Hx Hp] & Hs & Ef & Ev & ->).
  set (cnt := Z.of_nat k + Z.of_nat j * Z.of_nat R) in *.
  pose proof (NewInt3_sorted (cand_x n cnt) Re Imm) as So. pose proof (NewInt3_perm (cand_x n cnt) Re Imm) as Pe.
  destruct (NewInt3 (cand_x n cnt) Re Imm) as [[a b] c]. split; [|exact So].
  apply sum_sq_perm in Pe. cbn [sum_sq fold_right] in Pe. rewrite !Z.abs_square in Pe.
  assert (Hp4 : cand_p n cnt mod 4 = 1).
  { unfold cand_p, cand_x. rewrite Z.shiftl_mul_pow2 by lia. change (2 ^ 1) with 2.
    set (y := Z.shiftr (Z.sqrt n) 1 - cnt). replace (n - y * 2 * (y * 2)) with (n + - (y * y) * 4) by ring.
    now rewrite Z_mod_plus_full. }
  apply (findTwoSquares_norm HG _ _ _ Hp Hp4) in Ef. unfold gnorm in Ef. cbn [fst snd] in Ef. unfold cand_p in Ef. lia.
Qed.

(** ** hanging inputs *)
Lemma find_loop_none : forall k p draws i, 2 <= p ->
  (forall d, 0 <= d < Z.shiftr p 1 -> exp_recv 0 (Z.shiftl d 1) (Z.shiftr (p - 1) 1) p <> p - 1) ->
  find_loop GCD k p draws i = None.
Proof.
  induction k as [|k IH]; intros p draws i Hp H; cbn [find_loop]; [reflexivity|].
  assert (Hh : 0 < Z.shiftr p 1). { rewrite Z.shiftr_div_pow2 by lia. change (2 ^ 1) with 2. apply Z.div_str_pos. lia. }
  destruct (Z.eqb_spec (exp_recv 0 (Z.shiftl (draws i mod Z.shiftr p 1) 1) (Z.shiftr (p - 1) 1) p) (p - 1)) as [E|E].
  - exfalso. apply (H (draws i mod Z.shiftr p 1)); [now apply Z.mod_pos_bound|exact E].
  - now apply IH.
Qed.
(** no even residue works: decided by trying them all *)
Definition hopeless (p : Z) : bool :=
  forallb (fun d => negb (exp_recv 0 (Z.shiftl (Z.of_nat d) 1) (Z.shiftr (p - 1) 1) p =? p - 1)) (seq 0 (Z.to_nat (Z.shiftr p 1))).
Lemma hopeless_find : forall p draws, 2 <= p -> hopeless p = true -> findTwoSquares GCD p draws = None.
Proof.
  intros p draws Hp H. apply find_loop_none; [assumption|]. intros d Hd E. unfold hopeless in H.
  rewrite forallb_forall in H. specialize (H (Z.to_nat d)). rewrite Z2Nat.id in H by lia. rewrite E, Z.eqb_refl in H.
  discriminate H. apply in_seq. lia.
Qed.
End TS.
