(** Which numbers below 2^13 ThreeSquares can decompose. All candidates then have at most 13 bits, so no
    candidate is passed over (three_square.go:61): a goroutine stays on its first one for ever. *)
From Coq Require Import ZArith Bool Lia List Znumtheory.
From Verif Require Import GoBig GoBigFacts Sched SquaresModel SquaresProofs.
Import ListNotations.
Open Scope Z_scope.

(** an u that findTwoSquares accepts for the candidate p *)
Definition root (p u : Z) : Prop := 0 <= u < p /\ u ^ ((p - 1) / 2) mod p = p - 1.

Section Find.
Variable GCD : gaussian -> gaussian -> gaussian.
Variable is_prime : Z -> bool.

Lemma find_loop_root : forall k p draws i g, 2 < p -> find_loop GCD k p draws i = Some g -> exists u, root p u.
Proof.
  induction k as [|k IH]; intros p draws i g Hp H; cbn [find_loop] in H; [discriminate|].
  assert (E2 : Z.shiftr p 1 = p / 2) by (rewrite Z.shiftr_div_pow2 by lia; reflexivity).
  assert (E3 : Z.shiftr (p - 1) 1 = (p - 1) / 2) by (rewrite Z.shiftr_div_pow2 by lia; reflexivity).
  rewrite E2, E3 in H. assert (Hh : 0 < p / 2) by (apply Z.div_str_pos; lia).
  pose proof (Z.mod_pos_bound (draws i) (p / 2) Hh) as Hd. set (d := draws i mod (p / 2)) in *.
  assert (Eu : Z.shiftl d 1 = 2 * d) by (rewrite Z.shiftl_mul_pow2 by lia; change (2 ^ 1) with 2; ring). rewrite Eu in H.
  assert (He : 0 <= (p - 1) / 2) by (apply Z.div_pos; lia).
  rewrite exp_recv_nonneg in H by lia.
  destruct (Z.eqb_spec ((2 * d) ^ ((p - 1) / 2) mod p) (p - 1)) as [E|E]; [|now apply IH in H].
  exists (2 * d). split; [|exact E]. pose proof (Z.mul_div_le p 2 ltac:(lia)). lia.
Qed.

Lemma pow_opp_even : forall u e, 0 <= e -> (- u) ^ (2 * e) = u ^ (2 * e).
Proof. intros u e He. rewrite !Z.pow_mul_r by lia. f_equal. rewrite !Z.pow_2_r. ring. Qed.

Lemma find_of_root : gcd_spec GCD -> forall p u, 2 < p -> p mod 4 = 1 -> root p u ->
  exists draws Re Im, findTwoSquares GCD p draws = Some (Re, Im) /\ isValidGaussianIntGCD (Some (Re, Im)) = true.
Proof.
  intros HG p u Hp H4 [Hu Er].
  assert (E2 : Z.shiftr p 1 = p / 2) by (rewrite Z.shiftr_div_pow2 by lia; reflexivity).
  assert (E3 : Z.shiftr (p - 1) 1 = (p - 1) / 2) by (rewrite Z.shiftr_div_pow2 by lia; reflexivity).
  pose proof (Z.div_mod p 4 ltac:(lia)) as E4. rewrite H4 in E4. set (q := p / 4) in *.
  assert (Hq : 0 < q) by lia.
  assert (Eh : (p - 1) / 2 = 2 * q). { replace (p - 1) with (2 * q * 2) by lia. now rewrite Z.div_mul by lia. }
  assert (Ep2 : p / 2 = 2 * q). { symmetry. apply (Z.div_unique_pos p 2 (2 * q) 1); lia. }
  rewrite Eh in Er.
  (* an even root that can be drawn *)
  assert (Hev : exists d, 0 <= d < 2 * q /\ (2 * d) ^ (2 * q) mod p = p - 1).
  { assert (Hp1 : 1 ^ (2 * q) mod p = 1) by (rewrite Z.pow_1_l, Z.mod_small; lia).
    pose proof (Z.div_mod u 2 ltac:(lia)) as Eu. pose proof (Z.mod_pos_bound u 2 ltac:(lia)) as Bu.
    assert (C : u mod 2 = 0 \/ u mod 2 = 1) by lia. destruct C as [C|C]; rewrite C in Eu.
    - exists (u / 2). replace (2 * (u / 2)) with u by lia. split; [|exact Er].
      assert (u <> p - 1). { intros ->. rewrite <- pow_opp_even in Er by lia. replace (- (p - 1)) with (1 + (-1) * p) in Er by lia.
        rewrite <- pow_mod_idem, Z_mod_plus_full, pow_mod_idem, Hp1 in Er by lia. lia. } lia.
    - exists ((p - u) / 2). assert (Ed : 2 * ((p - u) / 2) = p - u).
      { assert (Em : p - u = (2 * q - u / 2) * 2) by lia. rewrite Em, Z.div_mul by lia. ring. }
      rewrite Ed. split.
      + assert (u <> 1). { intros ->. rewrite Hp1 in Er. lia. } lia.
      + replace (p - u) with (- u + 1 * p) by lia. rewrite <- Er, <- (pow_opp_even u q) by lia.
        rewrite <- (pow_mod_idem (- u + 1 * p)), Z_mod_plus_full, pow_mod_idem by lia. reflexivity. }
  destruct Hev as (d & Hd & Ed). exists (fun _ => d).
  destruct (findTwoSquares GCD p (fun _ => d)) as [[Re Im]|] eqn:Ef.
  - exists Re, Im. split; [reflexivity|]. apply (findTwoSquares_norm GCD HG) in Ef; [|lia|exact H4].
    unfold gnorm in Ef. cbn [fst snd] in Ef. unfold isValidGaussianIntGCD.
    assert (S1 : Re * Re = Z.abs Re * Z.abs Re) by (now rewrite Z.abs_square).
    assert (S2 : Im * Im = Z.abs Im * Z.abs Im) by (now rewrite Z.abs_square).
    destruct (Z.eqb_spec (Z.abs Re) 1) as [A|A]; destruct (Z.eqb_spec (Z.abs Im) 0) as [B|B];
      destruct (Z.eqb_spec (Z.abs Re) 0) as [A'|A']; destruct (Z.eqb_spec (Z.abs Im) 1) as [B'|B'];
      cbn [andb]; try reflexivity; exfalso; rewrite S1, S2 in Ef; clear -Ef A B A' B' Hp;
      repeat match goal with H : Z.abs _ = _ |- _ => rewrite H in * end; lia.
  - exfalso. unfold findTwoSquares in Ef. cbn [maxUFindingIter find_loop] in Ef. rewrite E2, E3, Ep2, Eh in Ef.
    rewrite (Z.mod_small d) in Ef by lia. rewrite Z.shiftl_mul_pow2 in Ef by lia. change (2 ^ 1) with 2 in Ef.
    rewrite (Z.mul_comm d 2) in Ef. rewrite exp_recv_nonneg in Ef by lia. rewrite Ed, Z.eqb_refl in Ef. discriminate.
Qed.

(** the k-th first candidate *)
Definition first_p (n k : Z) : Z := n - (2 * (Z.sqrt n / 2 - k)) ^ 2.

Lemma cand_p_first : forall n c, cand_p n c = first_p n c.
Proof.
  intros n c. unfold cand_p, cand_x, first_p. rewrite Z.shiftl_mul_pow2, Z.shiftr_div_pow2, Z.pow_2_r by lia.
  change (2 ^ 1) with 2. ring.
Qed.
Lemma first_p_mod4 : forall n k, n mod 4 = 1 -> first_p n k mod 4 = 1.
Proof.
  intros n k H. unfold first_p. set (y := Z.sqrt n / 2 - k). rewrite Z.pow_2_r.
  replace (n - 2 * y * (2 * y)) with (n + - (y * y) * 4) by ring. now rewrite Z_mod_plus_full.
Qed.

(** exact condition for small n *)
Theorem small_iff : gcd_spec GCD -> forall n R, 0 <= n < 2 ^ 13 -> n mod 4 = 1 ->
  ((exists v, can_return (ts_step GCD is_prime) ts_ret (ts_start n R) v) <->
   exists k u, 0 <= k < Z.of_nat R /\ k <= Z.sqrt n / 2 /\ 2 <= first_p n k /\ root (first_p n k) u).
Proof.
  intros HG n R Hn H4.
  assert (E2 : Z.shiftr (Z.sqrt n) 1 = Z.sqrt n / 2) by (rewrite Z.shiftr_div_pow2 by lia; reflexivity).
  assert (NS : forall c, cand_ok n c -> cand_skip is_prime n c = false).
  { intros c [_ Hc]. unfold cand_skip. apply andb_false_iff. left. apply Z.ltb_ge. unfold bitLenThreshold.
    apply bit_len_le_iff; [lia|]. rewrite cand_p_first in Hc. rewrite cand_p_first.
    assert (first_p n c <= n). { unfold first_p. rewrite Z.pow_2_r. pose proof (Z.square_nonneg (2 * (Z.sqrt n / 2 - c))). lia. }
    clear -Hn Hc H. lia. }
  split.
  - intros [v H]. apply ts_can_return_iff in H. destruct H as (k & j & draws & Re & Imm & Hk & Hr & Hok & Hs & Ef & Ev & _).
    assert (j = 0%nat).
    { destruct j as [|j]; [reflexivity|]. destruct (Hr 0%nat ltac:(lia)) as [Ho Hsk]. rewrite NS in Hsk by exact Ho. discriminate. }
    subst j. replace (Z.of_nat k + Z.of_nat 0 * Z.of_nat R) with (Z.of_nat k) in * by lia.
    destruct Hok as [Hx Hp]. rewrite cand_p_first in Hp, Ef. rewrite E2 in Hx.
    pose proof (first_p_mod4 n (Z.of_nat k) H4) as P4.
    assert (first_p n (Z.of_nat k) <> 2). { intros E. rewrite E in P4. discriminate. }
    destruct (find_loop_root _ (first_p n (Z.of_nat k)) _ _ _ ltac:(lia) Ef) as [u Hu]. exists (Z.of_nat k), u. split; [lia|]. split; [lia|]. split; assumption.
  - intros (k & u & Hk & Hx & Hp & Hu). pose proof (first_p_mod4 n k H4) as P4.
    assert (first_p n k <> 2). { intros E. rewrite E in P4. discriminate. }
    destruct (find_of_root HG (first_p n k) u ltac:(lia) P4 Hu) as (draws & Re & Imm & Ef & Ev).
    exists (NewInt3 (cand_x n k) Re Imm). apply ts_can_return_iff. exists (Z.to_nat k), 0%nat, draws, Re, Imm.
    split; [lia|]. split; [intros i Hi; lia|]. cbv zeta.
    replace (Z.of_nat (Z.to_nat k) + Z.of_nat 0 * Z.of_nat R) with k by lia.
    assert (Hok : cand_ok n k) by (split; [rewrite E2; lia|rewrite cand_p_first; exact Hp]).
    split; [exact Hok|]. split; [now apply NS|]. rewrite cand_p_first. auto.
Qed.
End Find.

(** ** deciding it *)
(** existsb that stops at the first hit also under call by value *)
Fixpoint any (f : Z -> bool) (n : nat) (x : Z) : bool :=
  match n with
  | O => false
  | S n => if f x then true else any f n (x + 1)
  end.
Lemma any_spec : forall f n x, any f n x = true <-> exists y, x <= y < x + Z.of_nat n /\ f y = true.
Proof.
  intros f. induction n as [|n IH]; intros x; cbn [any].
  - split; [discriminate|]. intros (y & H & _). lia.
  - destruct (f x) eqn:E.
    + split; [|reflexivity]. intros _. exists x. split; [lia|exact E].
    + rewrite IH. split; intros (y & H & Ey); exists y; (split; [|exact Ey]); [lia|].
      assert (y <> x) by congruence. lia.
Qed.
Definition is_root (e p u : Z) : bool := powmod u e p =? p - 1.
(** some small divisor of p excludes a root *)
Definition blocked (p : Z) : bool :=
  let e := (p - 1) / 2 in any (fun q => if p mod q =? 0 then negb (any (is_root e q) (Z.to_nat q) 0) else false) 90 3.
Definition has_root (p : Z) : bool :=
  if blocked p then false else any (is_root ((p - 1) / 2) p) (Z.to_nat p) 0.

Lemma has_root_spec : forall p, 2 <= p -> (has_root p = true <-> exists u, root p u).
Proof.
  intros p Hp. assert (He : 0 <= (p - 1) / 2) by (apply Z.div_pos; lia).
  assert (A : any (is_root ((p - 1) / 2) p) (Z.to_nat p) 0 = true <-> exists u, root p u).
  { rewrite any_spec. unfold is_root, root. split; intros (u & Hu & E); exists u; (split; [lia|]).
    - apply Z.eqb_eq in E. now rewrite powmod_spec in E by lia.
    - apply Z.eqb_eq. now rewrite powmod_spec by lia. }
  unfold has_root. destruct (blocked p) eqn:B; [|exact A]. split; [discriminate|]. intros (u & Hu & E). exfalso.
  unfold blocked in B. cbv zeta in B. apply any_spec in B. destruct B as (q & Hq & B).
  destruct (Z.eqb_spec (p mod q) 0) as [D|D]; [|discriminate]. apply negb_true_iff in B.
  assert (Q : 3 <= q) by lia. clear Hq. apply Z.mod_divide in D; [|lia]. destruct D as [t Ht].
  assert (Em : u ^ ((p - 1) / 2) mod q = q - 1).
  { pose proof (Z.div_mod (u ^ ((p - 1) / 2)) p ltac:(lia)) as Ed. rewrite E in Ed.
    set (X := u ^ ((p - 1) / 2)) in *. set (Y := X / p) in *. clearbody X Y.
    replace X with ((q - 1) + (p * Y / q + t - 1) * q); [rewrite Z_mod_plus_full, Z.mod_small; lia|].
    rewrite Ht. replace (t * q * Y) with (t * Y * q) by ring. rewrite Z.div_mul by lia. rewrite Ed, Ht. ring. }
  assert (T : any (is_root ((p - 1) / 2) q) (Z.to_nat q) 0 = true).
  { apply any_spec. exists (u mod q). pose proof (Z.mod_pos_bound u q ltac:(lia)). split; [lia|]. unfold is_root. apply Z.eqb_eq.
    now rewrite powmod_spec, pow_mod_idem, Em by lia. }
  congruence.
Qed.

(** the least goroutine number, from k on, whose candidate works *)
Fixpoint first_cpu (fuel : nat) (n k : Z) : option Z :=
  match fuel with
  | O => None
  | S f => if Z.sqrt n / 2 <? k then None
           else if (if 2 <=? first_p n k then has_root (first_p n k) else false) then Some k else first_cpu f n (k + 1)
  end.
(** rt is at most 45 below 2^13 *)
Definition cpus_needed (n : Z) : option Z := first_cpu 50 n 0.

Lemma first_cpu_spec : forall fuel n k0, 0 <= k0 -> Z.sqrt n / 2 - k0 < Z.of_nat fuel ->
  forall R, (exists k u, k0 <= k < R /\ k <= Z.sqrt n / 2 /\ 2 <= first_p n k /\ root (first_p n k) u) <->
            (exists k, first_cpu fuel n k0 = Some k /\ k < R).
Proof.
  induction fuel as [|f IH]; intros n k0 H0 Hf R; cbn [first_cpu].
  - split; [intros (k & u & Hk & Hx & _); lia|intros (k & E & _); discriminate].
  - destruct (Z.ltb_spec (Z.sqrt n / 2) k0) as [Hl|Hl].
    { split; [intros (k & u & Hk & Hx & _); lia|intros (k & E & _); discriminate]. }
    assert (T : (if 2 <=? first_p n k0 then has_root (first_p n k0) else false) = true <-> 2 <= first_p n k0 /\ exists u, root (first_p n k0) u).
    { destruct (Z.leb_spec 2 (first_p n k0)) as [A|A]; [|split; [discriminate|lia]]. rewrite (has_root_spec _ A). tauto. }
    destruct (if 2 <=? first_p n k0 then has_root (first_p n k0) else false).
    + destruct (proj1 T eq_refl) as [Hp [u Hu]]. split.
      * intros (k & u' & Hk & _). exists k0. split; [reflexivity|lia].
      * intros (k & E & Hk). injection E as <-. exists k0, u. split; [lia|]. split; [lia|]. auto.
    + rewrite <- IH by lia. split; intros (k & u & Hk & Hx & Hp & Hu); exists k, u; (split; [|auto]); [|lia].
      assert (k <> k0). { intros ->. assert (false = true) by (apply T; eauto). discriminate. } lia.
Qed.

Theorem small_dec : forall GCD is_prime, gcd_spec GCD -> forall n R, 0 <= n < 2 ^ 13 -> n mod 4 = 1 ->
  ((exists v, can_return (ts_step GCD is_prime) ts_ret (ts_start n R) v) <->
   exists k, cpus_needed n = Some k /\ k < Z.of_nat R).
Proof.
  intros GCD is_prime HG n R Hn H4. rewrite (small_iff GCD is_prime HG n R Hn H4). unfold cpus_needed. apply first_cpu_spec; [lia|].
  assert (Z.sqrt n <= 90). { apply Z.lt_succ_r, Z.sqrt_lt_square; lia. }
  assert (Z.sqrt n / 2 <= 45) by (apply Z.div_le_upper_bound; lia). lia.
Qed.
