(** C42 continued (which candidates lead to a result), C81 (goroutines of ThreeSquares after its return) and
    C82 (its argument after its return). Setting as in PropertiesSquares. *)
From Coq Require Import ZArith Znumtheory Bool Lia List.
From Verif Require Import GoBig GoBigFacts Sched ListUpd SquaresModel SquaresProofs Residues SquaresRace PropertiesSquares.
Import ListNotations.
Open Scope Z_scope.

(** a decomposition into two squares greater than 2 is never taken for a unit *)
Lemma norm_valid : forall g, 3 <= gnorm g -> isValidGaussianIntGCD (Some g) = true.
Proof.
  intros [a b] H. unfold gnorm in H. cbn [fst snd] in H. unfold isValidGaussianIntGCD.
  destruct (Z.eqb_spec (Z.abs a) 1); destruct (Z.eqb_spec (Z.abs b) 1); destruct (Z.eqb_spec (Z.abs a) 0); destruct (Z.eqb_spec (Z.abs b) 0);
  cbn [andb]; try reflexivity; exfalso; nia.
Qed.
Lemma prime_finds : forall GCD p, gcd_spec GCD -> prime p -> p mod 4 = 1 ->
  exists draws Re Im, findTwoSquares GCD p draws = Some (Re, Im) /\ isValidGaussianIntGCD (Some (Re, Im)) = true /\ Re * Re + Im * Im = p.
Proof.
  intros GCD p HG Hp H4. pose proof (prime_ge_2 _ Hp) as H2. destruct (even_nonresidue p Hp H4) as (d & Hd & E).
  assert (H5 : 5 <= p). { destruct (Z.eq_dec p 2) as [->|]; [discriminate|]. destruct (Z.eq_dec p 3) as [->|]; [discriminate|]. destruct (Z.eq_dec p 4) as [->|]; [discriminate|]. lia. }
  destruct (findTwoSquares GCD p (fun _ => d)) as [[Re Im]|] eqn:F.
  - exists (fun _ => d), Re, Im. pose proof (findTwoSquares_norm GCD HG _ _ _ H2 H4 F) as N. split; [exact F|].
    split; [apply norm_valid; lia|]. exact N.
  - exfalso. unfold findTwoSquares, maxUFindingIter in F. cbn [find_loop] in F.
    rewrite !Z.shiftr_div_pow2, !Z.shiftl_mul_pow2 in F by lia. change (2 ^ 1) with 2 in F.
    rewrite (Z.mod_small d) in F by exact Hd. rewrite (exp_recv_nonneg 0 (d * 2) ((p - 1) / 2)) in F.
    2: lia. 2: { apply Z.div_pos; lia. }
    rewrite (Z.mul_comm d 2), E, Z.eqb_refl in F. discriminate.
Qed.
Lemma factor_hopeless : forall GCD p q draws, prime q -> q mod 4 = 3 -> (q | p) -> p mod 4 = 1 -> 2 <= p ->
  findTwoSquares GCD p draws = None.
Proof.
  intros GCD p q draws Hq H3 Hd H4 H2. apply find_loop_none; [exact H2|]. intros d Hd'.
  rewrite !Z.shiftr_div_pow2, Z.shiftl_mul_pow2 by lia. change (2 ^ 1) with 2.
  rewrite exp_recv_nonneg by (try apply Z.div_pos; lia). now apply (no_even_power p q).
Qed.

(** ** C42. The candidates are n - x^2 for even x. A goroutine that gets to a prime candidate can return its
    decomposition; one that gets to a candidate with a prime factor 3 mod 4 never finds anything. *)
Theorem C42_prime_candidate : forall GCD is_prime, gcd_spec GCD -> forall n R k j,
  n mod 4 = 1 -> (k < R)%nat ->
  let x i := 2 * (Z.sqrt n / 2 - (Z.of_nat k + Z.of_nat i * Z.of_nat R)) in let p i := n - x i ^ 2 in
  (forall i, (i < j)%nat -> 0 <= x i /\ 13 < bit_len (p i) /\ 2 <= p i /\ is_prime (p i) = false) ->
  0 <= x j -> prime (p j) -> (bit_len (p j) <= 13 \/ is_prime (p j) = true) ->
  exists a b, a ^ 2 + b ^ 2 = p j /\ can_return (ts_step GCD is_prime) ts_ret (ts_start n R) (NewInt3 (x j) a b) /\
    three_squares_of n (NewInt3 (x j) a b).
Proof.
  intros GCD is_prime HG n R k j H4 Hk x p Hskip Hx Hp Hb.
  assert (P4 : p j mod 4 = 1).
  { unfold p, x. set (y := Z.sqrt n / 2 - (Z.of_nat k + Z.of_nat j * Z.of_nat R)). replace (n - (2 * y) ^ 2) with (n + - (y * y) * 4) by ring.
    now rewrite Z_mod_plus_full. }
  destruct (prime_finds GCD (p j) HG Hp P4) as (draws & Re & Im & F & V & N). exists Re, Im.
  split; [rewrite !Z.pow_2_r; exact N|].
  assert (Hn : 0 <= n). { pose proof (prime_ge_2 _ Hp) as H2. unfold p in H2. rewrite Z.pow_2_r in H2. nia. }
  assert (C : can_return (ts_step GCD is_prime) ts_ret (ts_start n R) (NewInt3 (x j) Re Im)).
  { destruct (C42_ThreeSquares_returns_partial GCD is_prime n R) as (_ & H & _). destruct (H Hn) as (_ & _ & Iff). apply Iff.
    exists k, j, draws, Re, Im. split; [exact Hk|]. cbv zeta. split; [|split; [exact Hx|split; [apply prime_ge_2; exact Hp|split; [exact Hb|auto]]]].
    intros i Hi. destruct (Hskip i Hi) as (A & B & C & D). auto. }
  split; [exact C|]. apply (C41_ThreeSquares_correct GCD is_prime HG n R (ts_start n R)); [exact H4| |exact C].
  unfold ts_init. now rewrite (proj2 (Z.ltb_ge n 0)).
Qed.
(** 29 on four CPUs: goroutine 0 has the prime 29 - 4^2 = 13 = 9 + 4 first *)
Example C42_prime_case : 29 mod 4 = 1 /\ 0 <= 2 * (Z.sqrt 29 / 2 - (0 + 0 * 4)) /\
  29 - (2 * (Z.sqrt 29 / 2 - (0 + 0 * 4))) ^ 2 = 13 /\ bit_len 13 <= 13 /\ prime 13 /\
  can_return (ts_step gauss_gcd (fun _ => true)) ts_ret (ts_start 29 4) (4, 3, 2).
Proof.
  split; [reflexivity|]. split; [vm_compute; discriminate|]. split; [reflexivity|]. split; [vm_compute; discriminate|]. split.
  - constructor; [lia|]. intros m Hm. apply Zgcd_1_rel_prime.
    assert (D : In m [1;2;3;4;5;6;7;8;9;10;11;12]) by (cbn; lia). cbn in D. repeat (destruct D as [<-|D]; [reflexivity|]). destruct D.
  - exists [QMain; QMain; QMain; QMain; QMain; QR 0 (fun _ => 0); QR 0 (fun i => Z.of_nat i); QR 0 (fun _ => 0); QMain]. eexists.
    split; [vm_compute; reflexivity|reflexivity].
Qed.

(** a goroutine with such a candidate keeps trying for ever, whatever happens around it *)
Lemma spin_step : forall GCD is_prime s c s' k x p, (forall draws, findTwoSquares GCD p draws = None) ->
  ts_step GCD is_prime s c = Some (Ret s') -> nth_error (q_rout s) k = Some (RFind x p) -> nth_error (q_rout s') k = Some (RFind x p).
Proof.
  intros GCD is_prime s c s' k x p Hno H Hk. destruct c as [|j draws]; cbn [ts_step] in H.
  - destruct (q_main s); try discriminate; [destruct (_ <? _)%nat|]; injection H as <-; cbn [q_rout q_set_main q_set_rout]; try exact Hk.
    rewrite nth_error_app1; [exact Hk|now apply nth_some_lt in Hk].
  - destruct (Nat.eq_dec j k) as [->|Hne].
    + rewrite Hk, Hno in H. cbn [isValidGaussianIntGCD] in H. injection H as <-. exact Hk.
    + destruct (nth_error (q_rout s) j) as [[cnt|x' p'|v|]|]; try discriminate.
      * destruct (q_main s); injection H as <-; cbn [q_rout q_set_rout]; rewrite nth_upd_neq by congruence; exact Hk.
      * destruct (isValidGaussianIntGCD _); [|injection H as <-; exact Hk]. destruct (findTwoSquares GCD p' draws) as [[? ?]|]; [|discriminate].
        injection H as <-. cbn [q_rout q_set_rout]. rewrite nth_upd_neq by congruence. exact Hk.
      * destruct (q_main s); injection H as <-; cbn [q_rout q_set_rout q_set_main]; rewrite nth_upd_neq by congruence; exact Hk.
Qed.
Theorem C81_spins : forall GCD is_prime s k x p q,
  prime q -> q mod 4 = 3 -> (q | p) -> p mod 4 = 1 -> 2 <= p -> nth_error (q_rout s) k = Some (RFind x p) ->
  forall sched s', run (ts_step GCD is_prime) (Ret s) sched = Some (Ret s') ->
    nth_error (q_rout s') k = Some (RFind x p) /\ forall draws, ts_step GCD is_prime s' (QR k draws) = Some (Ret s').
Proof.
  intros GCD is_prime s k x p q Hq H3 Hd H4 H2 Hk sched.
  assert (Hno : forall draws, findTwoSquares GCD p draws = None) by (intros; now apply (factor_hopeless GCD p q)).
  revert s Hk. induction sched as [|c sched IH]; intros s Hk s' H; cbn [run] in H.
  - injection H as <-. split; [exact Hk|]. intros draws. cbn [ts_step]. rewrite Hk, Hno. reflexivity.
  - destruct (ts_step GCD is_prime s c) as [[s1| |]|] eqn:E; try discriminate; [|destruct sched; discriminate..].
    apply (IH s1); [|exact H]. eapply spin_step; eauto.
Qed.
(** 217 = 12^2 + 8^2 + 3^2 on two CPUs: goroutine 1 finds 73 = 8^2 + 3^2, the call returns, and goroutine 0
    goes on looking for two squares that sum to 217 - 14^2 = 21 = 3 * 7, for ever *)
Definition sched_217 : list tschoice :=
  [QMain; QMain; QMain; QR 0 (fun _ => 0); QR 1 (fun _ => 0); QR 1 (fun i => Z.of_nat i); QR 1 (fun _ => 0); QMain].
Theorem C81_goroutines_stop_refuted : exists GCD is_prime n R sched s v k x p,
  gcd_spec GCD /\ n mod 4 = 1 /\ run (ts_step GCD is_prime) (Ret (ts_start n R)) sched = Some (Ret s) /\
  ts_ret s = Some v /\ three_squares_of n v /\
  forall sched' s', run (ts_step GCD is_prime) (Ret s) sched' = Some (Ret s') -> nth_error (q_rout s') k = Some (RFind x p).
Proof.
  exists gauss_gcd, (fun _ => true), 217, 2%nat, sched_217. eexists. exists (12, 8, 3), 0%nat, 14, 21.
  split; [exact gauss_gcd_spec|]. split; [reflexivity|]. split; [vm_compute; reflexivity|]. split; [reflexivity|]. split; [cbn; lia|].
  intros sched' s' H. eapply (C81_spins gauss_gcd (fun _ => true) _ 0 14 21 3); [exact prime_3|reflexivity|exists 7; reflexivity|reflexivity|lia| |exact H].
  reflexivity.
Qed.
(** What holds: when the call has returned, a goroutine outside the inner loop ends with its next step, and
    one in the inner loop with a prime number can end with its next two. *)
Theorem C81_goroutines_stop_partial : forall GCD is_prime, gcd_spec GCD -> forall n R sched s v k,
  n mod 4 = 1 -> run (ts_step GCD is_prime) (Ret (ts_start n R)) sched = Some (Ret s) -> ts_ret s = Some v -> (k < length (q_rout s))%nat ->
  ((forall x p, nth_error (q_rout s) k <> Some (RFind x p)) ->
     nth_error (q_rout s) k = Some RGone \/
     forall draws, exists s', ts_step GCD is_prime s (QR k draws) = Some (Ret s') /\ nth_error (q_rout s') k = Some RGone) /\
  (forall x p, nth_error (q_rout s) k = Some (RFind x p) ->
     p = n - x ^ 2 /\
     (prime p -> exists draws s', run (ts_step GCD is_prime) (Ret s) [QR k draws; QR k draws] = Some (Ret s') /\ nth_error (q_rout s') k = Some RGone)).
Proof.
  intros GCD is_prime HG n R sched s v k H4 Hr Hv Hk. unfold ts_ret in Hv. destruct (q_main s) as [| | |w] eqn:Em; try discriminate. injection Hv as ->.
  split.
  - intros Hnf. destruct (nth_error (q_rout s) k) as [[cnt|x p|u|]|] eqn:Ek.
    + right. intros draws. eexists. cbn [ts_step]. rewrite Ek, Em. split; [reflexivity|]. cbn [q_rout q_set_rout]. now apply nth_upd_eq.
    + exfalso. now apply (Hnf x p).
    + right. intros draws. eexists. cbn [ts_step]. rewrite Ek, Em. split; [reflexivity|]. cbn [q_rout q_set_rout]. now apply nth_upd_eq.
    + now left.
    + exfalso. apply nth_error_None in Ek. lia.
  - intros x p Ek. destruct (ts_inv_run GCD is_prime n R _ _ _ (ts_start_inv GCD is_prime n R) Hr) as (s1 & E & I). injection E as <-.
    destruct (ti_rout _ _ _ _ _ I _ _ Ek) as (j & _ & Hok & _ & -> & ->). set (cnt := Z.of_nat k + Z.of_nat j * Z.of_nat R) in *.
    split; [unfold cand_p; now rewrite Z.pow_2_r|]. intros Hp.
    assert (P4 : cand_p n cnt mod 4 = 1).
    { unfold cand_p, cand_x. rewrite Z.shiftl_mul_pow2 by lia. change (2 ^ 1) with 2. set (y := Z.shiftr (Z.sqrt n) 1 - cnt).
      replace (n - y * 2 * (y * 2)) with (n + - (y * y) * 4) by ring. now rewrite Z_mod_plus_full. }
    destruct (prime_finds GCD _ HG Hp P4) as (draws & Re & Im & F & V & _). exists draws. eexists.
    cbn [run]. assert (S1 : ts_step GCD is_prime s (QR k draws) = Some (Ret (q_set_rout s (upd (q_rout s) k (ROffer (NewInt3 (cand_x n cnt) Re Im)))))).
    { cbn [ts_step]. rewrite Ek, F, V. reflexivity. }
    rewrite S1. cbn [ts_step q_rout q_set_rout q_main]. rewrite nth_upd_eq by assumption. rewrite Em. split; [reflexivity|].
    cbn [q_rout q_set_rout]. apply nth_upd_eq. now rewrite length_upd.
Qed.
(** 29 on four CPUs: goroutine 0 delivers 16 + 9 + 4, goroutine 2 is in the inner loop with the prime 29,
    goroutine 1 before its first look at the context *)
Example C81_partial_case : 29 mod 4 = 1 /\ prime 29 /\ exists s, run (ts_step gauss_gcd (fun _ => true)) (Ret (ts_start 29 4))
    [QMain; QMain; QMain; QMain; QMain; QR 2 (fun _ => 0); QR 0 (fun _ => 0); QR 0 (fun i => Z.of_nat i); QR 0 (fun _ => 0); QMain] = Some (Ret s) /\
  ts_ret s = Some (4, 3, 2) /\ nth_error (q_rout s) 2 = Some (RFind 0 29) /\ nth_error (q_rout s) 1 = Some (RLoop 1).
Proof.
  split; [reflexivity|]. split.
  - constructor; [lia|]. intros m Hm. apply Zgcd_1_rel_prime.
    assert (D : In m [1;2;3;4;5;6;7;8;9;10;11;12;13;14;15;16;17;18;19;20;21;22;23;24;25;26;27;28]) by (cbn; lia).
    cbn in D. repeat (destruct D as [<-|D]; [reflexivity|]). destruct D.
  - eexists. split; [vm_compute; reflexivity|]. repeat split.
Qed.

(** ** C82. The finer machine returns the same values ... *)
Theorem C82_same_values : forall GCD is_prime n R v,
  can_return (f_step GCD is_prime) f_ret (f_start n R) v <-> can_return (ts_step GCD is_prime) ts_ret (ts_start n R) v.
Proof. exact f_same_values. Qed.
(** ... and until it returns the argument holds the caller's number; whatever the next owner writes to it
    afterwards does not change the value returned. *)
Theorem C82_argument_private_partial : forall GCD is_prime, gcd_spec GCD -> forall n R sched st,
  0 <= n -> n mod 4 = 1 -> run (f_step GCD is_prime) (Ret (f_start n R)) sched = Some st ->
  exists s, st = Ret s /\
    (f_ret s = None -> f_cell s = n) /\
    (forall v, f_ret s = Some v -> three_squares_of n v /\
       forall sched' st', run (f_step GCD is_prime) (Ret s) sched' = Some st' -> exists s', st' = Ret s' /\ f_ret s' = Some v).
Proof.
  intros GCD is_prime HG n R sched st Hn H4 H. destruct (f_run_abs GCD is_prime n R sched st H) as (s & -> & Hr & Hm). exists s.
  split; [reflexivity|]. split.
  - intros Hret. apply Hr. unfold f_ret in Hret. destruct (f_main s); try reflexivity. discriminate.
  - intros v Hv. unfold f_ret in Hv. destruct (f_main s) as [| | |w] eqn:Em; try discriminate. injection Hv as ->. split.
    + apply (C41_ThreeSquares_correct GCD is_prime HG n R (ts_start n R)); [exact H4| |now apply Hm].
      unfold ts_init. now rewrite (proj2 (Z.ltb_ge n 0)).
    + intros sched'. clear H Hr Hm. revert s Em. induction sched' as [|c sc IH]; intros s Em st' H; cbn [run] in H.
      * injection H as <-. exists s. split; [reflexivity|]. unfold f_ret. now rewrite Em.
      * destruct (f_step GCD is_prime s c) as [st1|] eqn:E; [|discriminate].
        destruct (f_ret_stays GCD is_prime s c st1 v Em E) as (s1 & -> & Em1). eapply IH; eauto.
Qed.
(** Refuted: whenever the call can return on two or more CPUs, it can do so while another goroutine is about to
    read its argument, which by then belongs to whoever took it from the pool: it searches the squares
    of that number *)
Theorem C82_late_reader : forall GCD is_prime n R v, (2 <= R)%nat ->
  can_return (f_step GCD is_prime) f_ret (f_start n R) v ->
  exists sched s j x, run (f_step GCD is_prime) (Ret (f_start n R)) sched = Some (Ret s) /\ f_ret s = Some v /\
    x = 2 * (Z.sqrt n / 2 - Z.of_nat j) /\
    forall w draws, 0 <= x -> 2 <= w - x ^ 2 -> bit_len (w - x ^ 2) <= 13 \/ is_prime (w - x ^ 2) = true ->
      exists s', run (f_step GCD is_prime) (Ret s) [FReuse w; FR j draws] = Some (Ret s') /\
        nth_error (f_rout s') j = Some (FFind x (w - x ^ 2)).
Proof.
  intros GCD is_prime n R v HR H. apply f_same_values in H. destruct (f_late_reader GCD is_prime n R v HR H) as (j & sched & s & Hj & Hrun & Hret & Hn & Hrt).
  set (x := 2 * (Z.sqrt n / 2 - Z.of_nat j)). exists sched, s, j, x. split; [exact Hrun|]. split; [exact Hret|]. split; [reflexivity|].
  intros w draws Hx Hp Hb. unfold f_ret in Hret. destruct (f_main s) as [| | |u] eqn:Em; try discriminate.
  eexists. cbn [run f_step]. rewrite Em. cbn [f_set_cell f_rout f_cell f_rt f_R]. rewrite Hn. split; [reflexivity|].
  cbn [f_set_rout f_rout]. rewrite nth_upd_eq by (now apply nth_some_lt in Hn). f_equal. unfold f_turn. rewrite Hrt.
  rewrite Z.shiftr_div_pow2, Z.shiftl_mul_pow2 by lia. change (2 ^ 1) with 2.
  rewrite (proj2 (Z.ltb_ge (Z.sqrt n / 2 - Z.of_nat j) 0)) by (unfold x in Hx; lia). cbv zeta.
  replace ((Z.sqrt n / 2 - Z.of_nat j) * 2) with x by (unfold x; ring). rewrite <- Z.pow_2_r.
  rewrite (proj2 (Z.ltb_ge _ _)) by exact Hp.
  destruct Hb as [Hb|Hb].
  - unfold bitLenThreshold. rewrite (proj2 (Z.ltb_ge 13 _)) by exact Hb. reflexivity.
  - rewrite Hb, andb_false_r. reflexivity.
Qed.
(** 101 = 8^2 + 6^2 + 1^2 on four CPUs; the recycled number now holds 1000003, and goroutine 0 (or another)
    works on a number that is not 101 - x^2 *)
Theorem C82_argument_private_refuted : exists GCD is_prime n R v sched s w j draws s' x p,
  gcd_spec GCD /\ n mod 4 = 1 /\ three_squares_of n v /\
  run (f_step GCD is_prime) (Ret (f_start n R)) sched = Some (Ret s) /\ f_ret s = Some v /\
  run (f_step GCD is_prime) (Ret s) [FReuse w; FR j draws] = Some (Ret s') /\
  nth_error (f_rout s') j = Some (FFind x p) /\ p <> n - x ^ 2.
Proof.
  exists gauss_gcd, (fun _ => true), 101, 4%nat, (8, 6, 1),
    [FMain; FMain; FMain; FMain; FMain; FR 2 (fun _ => 0); FR 1 (fun _ => 0); FR 1 (fun _ => 0); FR 1 (fun _ => 1); FR 1 (fun _ => 0); FMain].
  eexists. exists 1000003, 2%nat, (fun _ => 0). eexists. exists 6, 999967.
  split; [exact gauss_gcd_spec|]. split; [reflexivity|]. split; [cbn; lia|]. split; [vm_compute; reflexivity|]. split; [reflexivity|].
  split; [vm_compute; reflexivity|]. split; [reflexivity|]. discriminate.
Qed.
Example C82_case : can_return (f_step gauss_gcd (fun _ => true)) f_ret (f_start 101 4) (8, 6, 1).
Proof. apply f_same_values. apply (proj2 (proj2 (proj2 C41_case))). Qed.

Print Assumptions C42_prime_candidate.
Print Assumptions C81_spins.
Print Assumptions C81_goroutines_stop_refuted.
Print Assumptions C81_goroutines_stop_partial.
Print Assumptions C82_same_values.
Print Assumptions C82_argument_private_partial.
Print Assumptions C82_late_reader.
Print Assumptions C82_argument_private_refuted.
