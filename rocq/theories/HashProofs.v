(** Proofs about hashing, representatives and the trusted setup. *)
From Coq Require Import ZArith Bool Lia String Znumtheory List ZifyNat ZifyBool.
From Verif Require Import GoBig GoBigFacts StrFacts Spec AccModel AccFacts AccProofs IterModel IterProofs
  ForkJoin ParModel ParProofs HashModel.
Import ListNotations.
Open Scope Z_scope.

(** ** small facts about the constants *)
Lemma Min1024_val : Min1024 = 2 ^ 1023.
Proof. unfold Min1024. rewrite Z.shiftl_mul_pow2 by lia. reflexivity. Qed.
Lemma uh_P_val : uh_P = 90906479945022450706608444255860322124872501190254782434061962615363326054763.
Proof. vm_compute. reflexivity. Qed.
Lemma fr_small : fr_modulus < 2 ^ 254.
Proof. vm_compute. reflexivity. Qed.

(** ** map_outcome *)
Lemma map_outcome_ret : forall A B (f : A -> outcome B) l r, map_outcome f l = Ret r <->
  Forall2 (fun a b => f a = Ret b) l r.
Proof.
  intros A B f l. induction l as [|a l IH]; intros r; cbn [map_outcome].
  - split; [intros [= <-]; constructor|intros H; inversion H; reflexivity].
  - split.
    + destruct (f a) as [b| |] eqn:Ea; cbn [bind]; try discriminate.
      destruct (map_outcome f l) as [bs| |] eqn:El; cbn [bind]; try discriminate.
      intros [= <-]. constructor; [assumption|]. now apply IH.
    + intros H. inversion H; subst. rewrite H2. cbn [bind]. apply IH in H4. rewrite H4. reflexivity.
Qed.

Lemma map_outcome_panic : forall A B (f : A -> outcome B) l, (forall a, f a <> OutOfFuel) ->
  (map_outcome f l = Panic <-> Exists (fun a => f a = Panic) l).
Proof.
  intros A B f l Hf. induction l as [|a l IH]; cbn [map_outcome].
  - split; [discriminate|intros H; inversion H].
  - destruct (f a) as [b| |] eqn:Ea; cbn [bind].
    + destruct (map_outcome f l) as [bs| |] eqn:El; cbn [bind].
      * split; [discriminate|]. intros H; inversion H; subst; [congruence|]. apply IH in H1. discriminate.
      * split; [intros _|reflexivity]. apply Exists_cons_tl. now apply IH.
      * split; [discriminate|]. intros H; inversion H; subst; [congruence|]. apply IH in H1. discriminate.
    + split; [intros _|reflexivity]. now apply Exists_cons_hd.
    + now elim (Hf a).
Qed.

Lemma map_outcome_length : forall A B (f : A -> outcome B) l r, map_outcome f l = Ret r -> length r = length l.
Proof. intros A B f l r H. apply map_outcome_ret in H. symmetry. eapply Forall2_length; eauto. Qed.

Lemma Forall2_nth : forall A B (P : A -> B -> Prop) l r i a b, Forall2 P l r ->
  nth_error l i = Some a -> nth_error r i = Some b -> P a b.
Proof.
  intros A B P l r i a b H. revert i. induction H; intros [|i] Ha Hb; try discriminate; cbn in *.
  - congruence.
  - eauto.
Qed.

Lemma iter_swap : forall A (f : A -> A) n x, f (Nat.iter n f x) = Nat.iter n f (f x).
Proof. intros A f n x. induction n; [reflexivity|]. cbn. f_equal. exact IHn. Qed.

(** ** C19 *)
Section Chain.
Variable sha : string -> string.
Variable is_prime : Z -> bool.

Lemma htp_loop_ret : forall fuel h v, hash_to_prime_loop sha is_prime fuel h = Ret v ->
  exists n, (n < fuel)%nat /\ v = set_bytes (Nat.iter n sha h) /\ is_prime v = true /\
    forall m, (m < n)%nat -> is_prime (set_bytes (Nat.iter m sha h)) = false.
Proof.
  induction fuel; intros h v H; cbn [hash_to_prime_loop] in H; [discriminate|].
  destruct (is_prime (set_bytes h)) eqn:E.
  - injection H as <-. exists 0%nat. repeat split; auto; lia.
  - destruct (IHfuel _ _ H) as (n & H1 & H2 & H3 & H4). exists (S n).
    change (Nat.iter (S n) sha h) with (sha (Nat.iter n sha h)). rewrite iter_swap. repeat split; auto; [lia|].
    intros [|m] Hm; [exact E|]. change (Nat.iter (S m) sha h) with (sha (Nat.iter m sha h)). rewrite iter_swap. apply H4. lia.
Qed.

Lemma htp_loop_complete : forall n h, is_prime (set_bytes (Nat.iter n sha h)) = true ->
  exists v, forall fuel, (n < fuel)%nat -> hash_to_prime_loop sha is_prime fuel h = Ret v.
Proof.
  induction n; intros h Hn.
  - exists (set_bytes h). intros [|fuel] Hf; [lia|]. cbn [hash_to_prime_loop]. change (is_prime (set_bytes h) = true) in Hn. now rewrite Hn.
  - change (Nat.iter (S n) sha h) with (sha (Nat.iter n sha h)) in Hn. rewrite iter_swap in Hn. destruct (IHn (sha h) Hn) as (v & Hv).
    destruct (is_prime (set_bytes h)) eqn:E.
    + exists (set_bytes h). intros [|fuel] Hf; [lia|]. cbn [hash_to_prime_loop]. now rewrite E.
    + exists v. intros [|fuel] Hf; [lia|]. cbn [hash_to_prime_loop]. rewrite E. apply Hv. lia.
Qed.

Lemma htp_loop_mono : forall fuel h v, hash_to_prime_loop sha is_prime fuel h = Ret v ->
  forall fuel', (fuel <= fuel')%nat -> hash_to_prime_loop sha is_prime fuel' h = Ret v.
Proof.
  induction fuel; intros h v H fuel' Hf; cbn [hash_to_prime_loop] in H; [discriminate|].
  destruct fuel'; [lia|]. cbn [hash_to_prime_loop]. destruct (is_prime (set_bytes h)); [assumption|].
  apply IHfuel; auto. lia.
Qed.

Lemma htp_loop_no_panic : forall fuel h, hash_to_prime_loop sha is_prime fuel h <> Panic.
Proof.
  induction fuel; intros h; cbn [hash_to_prime_loop]; [discriminate|].
  destruct (is_prime (set_bytes h)); [discriminate|apply IHfuel].
Qed.
End Chain.

(** ** C20 *)
Lemma UniversalHash_cases : forall x,
  (UniversalHashToInt x = (x * uh_A + uh_B) mod uh_P /\ Z.odd (UniversalHashToInt x) = true) \/
  (UniversalHashToInt x = (x * uh_A + uh_B) mod uh_P + 1 /\ Z.odd (UniversalHashToInt x) = true /\
     Z.odd ((x * uh_A + uh_B) mod uh_P) = false).
Proof.
  intros x. unfold UniversalHashToInt, emod.
  replace (Z.abs uh_P) with uh_P by (rewrite uh_P_val; reflexivity).
  rewrite Z.add_mod_idemp_l by (rewrite uh_P_val; discriminate).
  rewrite Z.bit0_odd. destruct (Z.odd ((x * uh_A + uh_B) mod uh_P)) eqn:E.
  - left. auto.
  - right. split; [reflexivity|]. split; [|reflexivity]. rewrite Z.odd_add, E. reflexivity.
Qed.

Lemma UniversalHash_range : forall x, 1 <= UniversalHashToInt x <= uh_P.
Proof.
  intros x. pose proof (Z.mod_pos_bound (x * uh_A + uh_B) uh_P ltac:(rewrite uh_P_val; reflexivity)).
  destruct (UniversalHash_cases x) as [[E Ho]|(E & Ho & _)]; rewrite E in *; [|lia].
  destruct (Z.eq_dec ((x * uh_A + uh_B) mod uh_P) 0) as [E0|]; [|lia].
  rewrite E0 in Ho. discriminate.
Qed.

Lemma uh_coprime : coprime uh_A uh_P.
Proof. unfold coprime. vm_compute. reflexivity. Qed.

(** ** C17 *)
Lemma DI_divides : forall p q, 0 <= p < fr_modulus -> 0 <= q < fr_modulus ->
  (p + Min1024 | q + Min1024) -> p = q.
Proof.
  intros p q Hp Hq [k Hk]. rewrite Min1024_val in *.
  assert (B : fr_modulus < 2 ^ 1023) by (vm_compute; reflexivity).
  set (M := 2 ^ 1023) in *.
  assert (k = 1).
  { assert (0 < k) by nia. assert (k < 2) by nia. lia. }
  subst k. lia.
Qed.

Lemma bit_len_char : forall x k, 0 <= k -> 2 ^ k <= x < 2 ^ (k + 1) -> bit_len x = k + 1.
Proof.
  intros x k Hk Hx. unfold bit_len. assert (0 < 2 ^ k) by (apply Z.pow_pos_nonneg; lia).
  destruct (Z.eqb_spec x 0); [lia|]. rewrite Z.abs_eq by lia.
  rewrite (Z.log2_unique x k); [reflexivity|lia|]. rewrite <- Z.add_1_r. exact Hx.
Qed.

Lemma DI_range : forall p, 0 <= p < fr_modulus ->
  2 ^ 1023 <= p + Min1024 < 2 ^ 1023 + fr_modulus /\ bit_len (p + Min1024) = 1024.
Proof.
  intros p Hp. rewrite Min1024_val.
  assert (B : 2 ^ 1023 + fr_modulus < 2 ^ 1024) by (vm_compute; reflexivity).
  split; [lia|]. apply (bit_len_char (p + 2 ^ 1023) 1023); [lia|].
  change (1023 + 1) with 1024. lia.
Qed.

(** ** C18 *)
Section Rep.
Variable sha : string -> string.
Variable is_prime : Z -> bool.
Variable poseidon : list Z -> Z.

Definition rep_of (fuel : nat) (e : Z) (s : string) : outcome Z :=
  if e =? DIHashFromPoseidon then do x <- ElementFromString s; Ret (poseidon [x] + Min1024)
  else HashToPrime sha is_prime fuel s.

Lemma GenRep_map : forall fuel set e,
  GenRepresentatives sha is_prime poseidon fuel set e = map_outcome (rep_of fuel e) set.
Proof.
  intros fuel set e. unfold GenRepresentatives, rep_of.
  destruct (Z.eqb_spec e HashToPrimeFromSha256) as [->|].
  - reflexivity.
  - destruct (Z.eqb_spec e DIHashFromPoseidon); reflexivity.
Qed.

Lemma GenRep_nonneg : forall fuel set e rep, (forall l, 0 <= poseidon l) ->
  GenRepresentatives sha is_prime poseidon fuel set e = Ret rep -> nonneg rep.
Proof.
  intros fuel set e rep Hp H. rewrite GenRep_map in H. apply map_outcome_ret in H.
  induction H as [|s r set rep Hs _ IH]; constructor; [|assumption].
  unfold rep_of in Hs. destruct (e =? DIHashFromPoseidon).
  - destruct (ElementFromString s) as [x| |]; cbn [bind] in Hs; try discriminate. injection Hs as <-.
    pose proof (Hp [x]). rewrite Min1024_val. assert (0 <= 2 ^ 1023) by (apply Z.pow_nonneg; lia). lia.
  - apply htp_loop_ret in Hs. destruct Hs as (n & _ & -> & _). apply set_bytes_bound.
Qed.

Lemma GenRep_length : forall fuel set e rep,
  GenRepresentatives sha is_prime poseidon fuel set e = Ret rep -> length rep = length set.
Proof. intros fuel set e rep H. rewrite GenRep_map in H. eapply map_outcome_length; eauto. Qed.
End Rep.

(** ** C24 *)
Lemma TrustedSetup_facts : let s := TrustedSetup in
  Z.odd (sN s) = true /\ bit_len (sN s) = 2048 /\ 1 < sG s < sN s /\ 1 < sH s < sN s /\
  coprime (sG s) (sN s) /\ coprime (sH s) (sN s) /\ sG s <> sH s.
Proof. cbv zeta. unfold coprime. vm_compute. repeat split; try reflexivity; discriminate. Qed.
