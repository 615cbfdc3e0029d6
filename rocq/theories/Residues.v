(** Square roots of -1: a number with a prime factor 3 mod 4 has none, a prime 1 mod 4 has one, and a
    power of an even number gives it. *)
From Coq Require Import ZArith Znumtheory Bool List Lia.
From Verif Require Import GoBigFacts Fermat.
Import ListNotations.
Open Scope Z_scope.

Lemma mod_eq_divide : forall a b m, m <> 0 -> a mod m = b mod m -> (m | a - b).
Proof.
  intros a b m Hm H. exists (a / m - b / m). rewrite (Z.div_mod a m Hm) at 1. rewrite (Z.div_mod b m Hm) at 1. rewrite H. ring.
Qed.
Lemma divide_mod_eq : forall a b m, 0 < m -> (m | a - b) -> a mod m = b mod m.
Proof. intros a b m Hm [k H]. replace a with (b + k * m) by lia. now rewrite Z_mod_plus_full. Qed.

(** -1 is no square modulo a prime 3 mod 4 *)
Lemma no_root : forall q w, prime q -> q mod 4 = 3 -> ~ (q | w * w + 1).
Proof.
  intros q w Hq H4 Hd. pose proof (prime_ge_2 _ Hq) as H2.
  assert (Hw : ~ (q | w)).
  { intros Hw. assert (H1 : (q | 1)). { replace 1 with (w * w + 1 - w * w) by ring. apply Z.divide_sub_r; [exact Hd|]. now apply Z.divide_mul_l. }
    apply Z.divide_1_r_nonneg in H1; lia. }
  pose proof (fermat q w Hq Hw) as F.
  set (k := q / 4). assert (Eq : q = 4 * k + 3) by (unfold k; rewrite (Z.div_mod q 4) at 1; lia).
  assert (Hk : 0 <= k) by (unfold k; apply Z.div_pos; lia).
  assert (E : w ^ (q - 1) = (w * w) ^ (2 * k + 1)).
  { replace (q - 1) with (2 * (2 * k + 1)) by lia. rewrite Z.pow_mul_r by lia. now rewrite Z.pow_2_r. }
  rewrite E in F. assert (M : (w * w) mod q = (-1) mod q). { apply divide_mod_eq; [lia|]. replace (w * w - -1) with (w * w + 1) by ring. exact Hd. }
  rewrite <- (pow_mod_idem (w * w)) in F by lia. rewrite M in F. rewrite pow_mod_idem in F by lia.
  assert (P : (-1) ^ (2 * k + 1) = -1). { rewrite Z.pow_add_r, Z.pow_mul_r by lia. change ((-1) ^ 2) with 1. rewrite Z.pow_1_l by lia. reflexivity. }
  rewrite P in F. assert (D : (q | 1 - -1)). { apply mod_eq_divide; [lia|]. rewrite F. apply Z.mod_small. lia. }
  apply Z.divide_pos_le in D; [|lia]. lia.
Qed.
Lemma no_even_power : forall p q u, prime q -> q mod 4 = 3 -> (q | p) -> p mod 4 = 1 -> 2 <= p ->
  u ^ ((p - 1) / 2) mod p <> p - 1.
Proof.
  intros p q u Hq H4 Hd Hp H2 E. set (k := p / 4). assert (Ep : p = 4 * k + 1) by (unfold k; rewrite (Z.div_mod p 4) at 1; lia).
  assert (Hk : 0 <= k) by (unfold k; apply Z.div_pos; lia).
  assert (Eh : (p - 1) / 2 = k * 2). { replace (p - 1) with (k * 2 * 2) by lia. now rewrite Z.div_mul. }
  rewrite Eh, Z.pow_mul_r, Z.pow_2_r in E by lia.
  apply (no_root q (u ^ k) Hq H4). apply Z.divide_trans with p; [exact Hd|].
  replace (u ^ k * u ^ k + 1) with (u ^ k * u ^ k - -1) by ring. apply mod_eq_divide; [lia|]. rewrite E.
  replace (-1) with (p - 1 + (-1) * p) by ring. rewrite Z_mod_plus_full. symmetry. apply Z.mod_small. lia.
Qed.

(** ** roots of a polynomial modulo a prime *)
Fixpoint eval (l : list Z) (x : Z) : Z := match l with [] => 0 | a :: r => a + x * eval r x end.
Fixpoint addz (l m : list Z) : list Z :=
  match l, m with
  | a :: l, b :: m => a + b :: addz l m
  | l, [] => l
  | [], m => m
  end.
(** (P(x) - P(a)) / (x - a) *)
Fixpoint quo (l : list Z) (a : Z) : list Z :=
  match l with [] => [] | _ :: r => addz r (map (Z.mul a) (quo r a)) end.
Lemma eval_addz : forall l m x, eval (addz l m) x = eval l x + eval m x.
Proof.
  induction l as [|a l IH]; intros [|b m] x; cbn [addz eval]; try lia. rewrite IH. ring.
Qed.
Lemma eval_scale : forall a l x, eval (map (Z.mul a) l) x = a * eval l x.
Proof. induction l as [|b l IH]; intros x; cbn [map eval]; [ring|]. rewrite IH. ring. Qed.
Lemma eval_quo : forall l a x, eval l x - eval l a = (x - a) * eval (quo l a) x.
Proof.
  induction l as [|c r IH]; intros a x; cbn [eval quo]; [ring|].
  rewrite eval_addz, eval_scale. specialize (IH a x). nia.
Qed.
Lemma addz_length : forall l m, (length m <= length l)%nat -> length (addz l m) = length l.
Proof. induction l as [|a l IH]; intros [|b m] H; cbn [addz length] in *; try lia. rewrite IH; lia. Qed.
Lemma quo_length : forall l a, length (quo l a) = pred (length l).
Proof.
  induction l as [|c r IH]; intros a; cbn [quo length pred]; [reflexivity|].
  rewrite addz_length; [reflexivity|]. rewrite map_length, IH. lia.
Qed.
Lemma last_addz : forall l m, (length m < length l)%nat -> last (addz l m) 0 = last l 0.
Proof.
  induction l as [|a l IH]; intros [|b m] H; cbn [addz length] in *; try lia.
  destruct l as [|a' l]; [cbn in H; lia|]. specialize (IH m ltac:(lia)).
  destruct (addz (a' :: l) m) as [|c t] eqn:E; [destruct m; discriminate|].
  change (last (a + b :: c :: t) 0) with (last (c :: t) 0). rewrite IH. reflexivity.
Qed.
Lemma last_quo : forall l a, (2 <= length l)%nat -> last (quo l a) 0 = last l 0.
Proof.
  intros [|c [|d r]] a H; cbn in H; try lia. change (last (c :: d :: r) 0) with (last (d :: r) 0).
  change (quo (c :: d :: r) a) with (addz (d :: r) (map (Z.mul a) (quo (d :: r) a))).
  apply last_addz. rewrite map_length, quo_length. cbn. lia.
Qed.
Lemma roots : forall p n l rs, prime p -> length l = n -> (1 <= n)%nat -> NoDup rs ->
  (forall x, In x rs -> 0 <= x < p) -> (forall x, In x rs -> (p | eval l x)) -> (n <= length rs)%nat -> (p | last l 0).
Proof.
  intros p n. induction n as [|n IH]; intros l rs Hp Hl Hn Nd Hr He Hlen; [lia|].
  destruct n as [|n].
  - destruct l as [|c [|d l]]; try discriminate. cbn [last]. destruct rs as [|x rs]; [cbn in Hlen; lia|].
    specialize (He x (or_introl eq_refl)). cbn [eval] in He. now replace (c + x * 0) with c in He by ring.
  - destruct rs as [|a rs]; [cbn in Hlen; lia|]. rewrite <- (last_quo l a) by lia.
    apply (IH (quo l a) rs); try assumption.
    + rewrite quo_length, Hl. reflexivity.
    + lia.
    + now inversion Nd.
    + intros x Hx. apply Hr. now right.
    + intros x Hx. assert (Hxa : x <> a). { inversion Nd as [|? ? Na _]. intros ->. contradiction. }
      pose proof (Hr x (or_intror Hx)) as B1. pose proof (Hr a (or_introl eq_refl)) as B2.
      assert (D : (p | (x - a) * eval (quo l a) x)).
      { rewrite <- eval_quo. apply Z.divide_sub_r; apply He; [now right|now left]. }
      apply prime_mult in D; [|exact Hp]. destruct D as [[z D]|D]; [|exact D]. exfalso.
      clear -D B1 B2 Hxa. assert (z = 0 \/ z <= -1 \/ 1 <= z) as [->|[?|?]] by lia; nia.
    + cbn in Hlen. lia.
Qed.

Lemma eval_monomial : forall m x, eval (repeat 0 m ++ [1]) x = x ^ Z.of_nat m.
Proof.
  induction m as [|m IH]; intros x; [cbn [repeat app eval Z.of_nat]; rewrite Z.pow_0_r; ring|]. rewrite Nat2Z.inj_succ, Z.pow_succ_r by lia.
  cbn [repeat app eval]. rewrite IH. ring.
Qed.
Lemma not_all_one : forall p m, prime p -> 0 < m < p - 1 -> exists x, 1 <= x < p /\ x ^ m mod p <> 1.
Proof.
  intros p m Hp Hm.
  destruct (existsb (fun x => negb (x ^ m mod p =? 1)) (residues p)) eqn:E.
  - apply existsb_exists in E. destruct E as (x & Hx & E). exists x. split; [now apply in_residues|].
    intros C. rewrite C in E. discriminate.
  - exfalso. set (l := -1 :: repeat 0 (pred (Z.to_nat m)) ++ [1]).
    assert (D : (p | last l 0)).
    { apply (roots p (S (Z.to_nat m)) l (residues p)); try assumption.
      - unfold l. cbn [length]. rewrite app_length, repeat_length. cbn. lia.
      - lia.
      - apply NoDup_residues.
      - intros x Hx. apply in_residues in Hx. lia.
      - intros x Hx. unfold l. cbn [eval]. rewrite eval_monomial.
        assert (Ex : x ^ m mod p = 1).
        { destruct (Z.eqb_spec (x ^ m mod p) 1) as [Ex|Ex]; [exact Ex|]. exfalso.
          assert (T : existsb (fun x => negb (x ^ m mod p =? 1)) (residues p) = true).
          { apply existsb_exists. exists x. split; [exact Hx|]. now rewrite (proj2 (Z.eqb_neq _ _) Ex). }
          congruence. }
        replace (-1 + x * x ^ Z.of_nat (pred (Z.to_nat m))) with (x ^ m - 1).
        + apply mod_eq_divide; [pose proof (prime_ge_2 _ Hp); lia|]. rewrite Ex. symmetry. apply Z.mod_small. lia.
        + replace m with (Z.succ (Z.of_nat (pred (Z.to_nat m)))) at 1 by lia. rewrite Z.pow_succ_r by lia. ring.
      - assert (L : Z.of_nat (length (residues p)) = p - 1) by (apply length_residues; lia). lia. }
    assert (La : last l 0 = 1).
    { unfold l. change (-1 :: repeat 0 (pred (Z.to_nat m)) ++ [1]) with ((-1 :: repeat 0 (pred (Z.to_nat m))) ++ [1]). apply last_last. }
    rewrite La in D. apply Z.divide_1_r_nonneg in D; lia.
Qed.

(** every prime 1 mod 4 has an even number with power p - 1 below p - 1 *)
Lemma even_nonresidue : forall p, prime p -> p mod 4 = 1 ->
  exists d, 0 <= d < p / 2 /\ (2 * d) ^ ((p - 1) / 2) mod p = p - 1.
Proof.
  intros p Hp H4. pose proof (prime_ge_2 _ Hp) as H2. set (k := p / 4).
  assert (Ep : p = 4 * k + 1) by (unfold k; rewrite (Z.div_mod p 4) at 1; lia).
  assert (Hk : 1 <= k) by lia. set (m := (p - 1) / 2).
  assert (Em : m = 2 * k). { unfold m. replace (p - 1) with (2 * k * 2) by lia. now rewrite Z.div_mul. }
  assert (Eh : p / 2 = 2 * k). { replace p with (1 + 2 * k * 2) by lia. now rewrite Z.div_add. }
  destruct (not_all_one p m Hp ltac:(lia)) as (x & Hx & Hne).
  assert (Hm : x ^ m mod p = p - 1).
  { pose proof (fermat p x Hp) as F. assert (Hnd : ~ (p | x)). { intros D. apply Z.divide_pos_le in D; lia. } specialize (F Hnd).
    assert (E2 : x ^ (p - 1) = x ^ m * x ^ m). { rewrite <- Z.pow_add_r by lia. f_equal. lia. }
    rewrite E2 in F. assert (D : (p | (x ^ m - 1) * (x ^ m + 1))).
    { replace ((x ^ m - 1) * (x ^ m + 1)) with (x ^ m * x ^ m - 1) by ring. apply mod_eq_divide; [lia|]. rewrite F. symmetry. apply Z.mod_small. lia. }
    apply prime_mult in D; [|exact Hp]. destruct D as [D|D].
    - exfalso. apply Hne. replace 1 with (1 mod p) by (apply Z.mod_small; lia). apply divide_mod_eq; [lia|exact D].
    - replace (p - 1) with ((p - 1) mod p) by (apply Z.mod_small; lia). apply divide_mod_eq; [lia|].
      replace (x ^ m - (p - 1)) with (x ^ m + 1 - p) by ring. apply Z.divide_sub_r; [exact D|apply Z.divide_refl]. }
  assert (Neg : (p - x) ^ m mod p = x ^ m mod p).
  { rewrite <- (pow_mod_idem (p - x)) by lia. replace ((p - x) mod p) with ((- x) mod p).
    2:{ replace (p - x) with (- x + 1 * p) by ring. now rewrite Z_mod_plus_full. }
    rewrite pow_mod_idem by lia. f_equal. rewrite Em, !Z.pow_mul_r by lia. f_equal. ring. }
  assert (Hlast : x <> p - 1).
  { intros ->. rewrite <- Hm in Hne. assert (E : (p - 1) ^ m mod p = 1).
    { rewrite <- (pow_mod_idem (p - 1)) by lia. replace ((p - 1) mod p) with ((-1) mod p).
      2:{ replace (p - 1) with (-1 + 1 * p) by ring. now rewrite Z_mod_plus_full. }
      rewrite pow_mod_idem by lia. rewrite Em, Z.pow_mul_r by lia. change ((-1) ^ 2) with 1. rewrite Z.pow_1_l by lia. apply Z.mod_small. lia. }
    rewrite Hm in E. lia. }
  assert (Hone : x <> 1). { intros ->. apply Hne. rewrite Z.pow_1_l by lia. apply Z.mod_small. lia. }
  destruct (Z.Even_or_Odd x) as [[d Ed]|[d Ed]].
  - exists d. rewrite <- Ed. split; [rewrite Eh; clear -Ep Ed Hx Hlast Hone Hk; lia|exact Hm].
  - exists (2 * k - d). split; [rewrite Eh; clear -Ep Ed Hx Hlast Hone Hk; lia|]. replace (2 * (2 * k - d)) with (p - x) by lia. now rewrite Neg.
Qed.
