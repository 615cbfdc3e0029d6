(** Theorems for properties C17-C20, C23, C24 (representatives, hashing, setup constants).
    sha, is_prime and poseidon are arbitrary functions; a premise is added where a fact about them
    is needed (32-byte digests, outputs inside the field). *)
From Coq Require Import ZArith Bool Lia String Znumtheory List.
From Verif Require Import GoBig GoBigFacts StrFacts Spec AccModel AccFacts AccProofs IterProofs HashModel HashProofs.
Import ListNotations.
Open Scope Z_scope.

(** toy instances for the examples *)
Definition toy_sha (s : string) : string := big_bytes ((set_bytes s * 7 + 5) mod 251).
Definition toy_prime (x : Z) : bool := (x =? 2) || (x =? 3) || (x =? 5) || (x =? 7) || (x =? 11) || (x =? 13).
Definition toy_poseidon (l : list Z) : Z := (1 + 31 * fold_right Z.add 0 l) mod fr_modulus.

(** ** C17 *)
Theorem C17_division_intractable : forall (poseidon : list Z -> Z) l1 l2,
  (forall l, 0 <= poseidon l < fr_modulus) ->
  let r1 := DIHashPoseidon poseidon l1 in
  let r2 := DIHashPoseidon poseidon l2 in
  (2 ^ 1023 <= r1 < 2 ^ 1023 + fr_modulus /\ bit_len r1 = 1024) /\
  (r1 = r2 <-> poseidon l1 = poseidon l2) /\
  ((r1 | r2) -> r1 = r2) /\
  PoseidonAndDIHash poseidon l1 = (poseidon l1, r1).
Proof.
  intros poseidon l1 l2 Hp. cbv zeta. unfold DIHashPoseidon, PoseidonAndDIHash. split; [|split; [|split]].
  - apply DI_range, Hp.
  - split; intros; [lia|congruence].
  - intros H. f_equal. apply DI_divides; auto.
  - reflexivity.
Qed.
Example C17_case : 0 <= toy_poseidon [5] < fr_modulus /\
  DIHashPoseidon toy_poseidon [5] = 2 ^ 1023 + 156.
Proof. vm_compute. repeat split; discriminate. Qed.

(** ** C18 *)
Theorem C18_representatives :
  forall sha is_prime poseidon fuel,
  let Gen := GenRepresentatives sha is_prime poseidon fuel in
  (* one representative per string, each the one the string gets on its own *)
  (forall set e rep, Gen set e = Ret rep -> length rep = length set /\
     forall i s r, nth_error set i = Some s -> nth_error rep i = Some r -> Gen [s] e = Ret [r]) /\
  (* Poseidon encoding: panics exactly on non-numbers *)
  (forall set, Gen set DIHashFromPoseidon = Panic <-> Exists (fun s => ~ decimal_string s) set) /\
  (forall set, Forall decimal_string set -> exists rep, Gen set DIHashFromPoseidon = Ret rep) /\
  (* it is a function of the number modulo the field modulus, the number being hashed *)
  (forall x, Gen [dec x] DIHashFromPoseidon = Ret [poseidon [x mod fr_modulus] + 2 ^ 1023]) /\
  (forall s z, set_string10 s = Some z -> Gen [s] DIHashFromPoseidon = Gen [dec z] DIHashFromPoseidon) /\
  (forall x y, 0 <= x < fr_modulus -> 0 <= y < fr_modulus -> x mod fr_modulus = y mod fr_modulus -> x = y) /\
  (* every other encoding is the prime encoding *)
  (forall set e, e <> DIHashFromPoseidon -> Gen set e = Gen set HashToPrimeFromSha256).
Proof.
  intros sha is_prime poseidon fuel. cbv zeta. repeat match goal with |- _ /\ _ => split end.
  - intros set e rep H. split; [eapply GenRep_length; eauto|]. intros i s r Hs Hr.
    rewrite GenRep_map in *. apply map_outcome_ret in H. pose proof (Forall2_nth _ _ _ _ _ _ _ _ H Hs Hr) as E.
    cbv beta in E. cbn [map_outcome]. rewrite E. reflexivity.
  - intros set. rewrite GenRep_map. rewrite map_outcome_panic.
    + split; intros H; (eapply Exists_impl; [|exact H]); cbv beta; intros s Hs.
      * unfold rep_of in Hs. rewrite Z.eqb_refl in Hs. unfold ElementFromString in Hs. rewrite <- set_string10_decimal.
        destruct (set_string10 s); [discriminate|congruence].
      * unfold rep_of. rewrite ?Z.eqb_refl. unfold ElementFromString. rewrite <- set_string10_decimal in Hs.
        destruct (set_string10 s); [|reflexivity]. exfalso. apply Hs. discriminate.
    + intros s. unfold rep_of. rewrite ?Z.eqb_refl. unfold ElementFromString. destruct (set_string10 s); discriminate.
  - intros set H. rewrite GenRep_map. induction H as [|s set Hs _ [rep IH]].
    + exists []. reflexivity.
    + cbn [map_outcome]. rewrite IH. unfold rep_of. rewrite ?Z.eqb_refl. unfold ElementFromString.
      rewrite <- set_string10_decimal in Hs. destruct (set_string10 s); [|congruence]. cbn [bind]. eauto.
  - intros x. rewrite GenRep_map. cbn [map_outcome]. unfold rep_of. rewrite ?Z.eqb_refl. unfold ElementFromString.
    rewrite set_string10_dec. cbn [bind]. rewrite Min1024_val. reflexivity.
  - intros s z H. rewrite !GenRep_map. cbn [map_outcome]. unfold rep_of. rewrite ?Z.eqb_refl. unfold ElementFromString.
    rewrite set_string10_dec, H. reflexivity.
  - intros x y Hx Hy. now rewrite !Z.mod_small by assumption.
  - intros set e He. unfold GenRepresentatives. destruct (e =? HashToPrimeFromSha256); [reflexivity|].
    destruct (Z.eqb_spec e DIHashFromPoseidon); [contradiction|reflexivity].
Qed.
Example C18_case : GenRepresentatives toy_sha toy_prime toy_poseidon 9 ["12"; "-1"]%string 7 =
    Ret [2 ^ 1023 + 373; 2 ^ 1023 + (1 + 31 * (fr_modulus - 1)) mod fr_modulus] /\
  GenRepresentatives toy_sha toy_prime toy_poseidon 9 ["12"; "x"]%string 7 = Panic /\
  ~ decimal_string "x"%string.
Proof.
  split; [vm_compute; reflexivity|]. split; [vm_compute; reflexivity|].
  rewrite <- set_string10_decimal. vm_compute. congruence.
Qed.

(** ** C19: chain n = n+1 applications of sha to the input *)
Theorem C19_hash_to_prime : forall sha is_prime input,
  let chain n := set_bytes (Nat.iter (S n) sha input) in
  (forall fuel v, HashToPrime sha is_prime fuel input = Ret v ->
     is_prime v = true /\
     (exists n, v = chain n /\ forall m, (m < n)%nat -> is_prime (chain m) = false) /\
     ((forall s, String.length (sha s) = 32%nat) -> 0 <= v < 2 ^ 256) /\
     forall fuel' v', HashToPrime sha is_prime fuel' input = Ret v' -> v' = v) /\
  (forall n, is_prime (chain n) = true -> exists fuel v, HashToPrime sha is_prime fuel input = Ret v) /\
  (forall fuel, HashToPrime sha is_prime fuel input <> Panic).
Proof.
  intros sha is_prime input. cbv zeta. split; [|split].
  - intros fuel v H. pose proof H as H0. unfold HashToPrime in H. apply htp_loop_ret in H.
    destruct H as (n & Hn & Hv & Hp & Hfirst). split; [assumption|]. split; [|split].
    + exists n. split.
      * rewrite Hv. f_equal. symmetry. apply (iter_swap _ sha n input).
      * intros m Hm. rewrite <- (Hfirst m Hm). do 2 f_equal. apply (iter_swap _ sha m input).
    + intros Hlen. rewrite Hv.
      assert (E : exists s, Nat.iter n sha (sha input) = sha s).
      { exists (Nat.iter n sha input). symmetry. apply (iter_swap _ sha n input). }
      destruct E as [s ->]. pose proof (set_bytes_bound (sha s)) as B. rewrite Hlen in B.
      change (256 ^ Z.of_nat 32) with (2 ^ 256) in B. exact B.
    + intros fuel' v' H'. unfold HashToPrime in *.
      destruct (Nat.le_ge_cases fuel fuel') as [Hl|Hl].
      * apply (htp_loop_mono _ _ _ _ _ H0) in Hl. congruence.
      * apply (htp_loop_mono _ _ _ _ _ H') in Hl. congruence.
  - intros n Hn. change (Nat.iter (S n) sha input) with (sha (Nat.iter n sha input)) in Hn.
    rewrite (iter_swap _ sha n input) in Hn. destruct (htp_loop_complete _ _ _ _ Hn) as (v & Hv).
    exists (S n), v. apply Hv. lia.
  - intros fuel. apply htp_loop_no_panic.
Qed.
Example C19_case : exists n, HashToPrime toy_sha toy_prime 300 "ab" = Ret n /\ n <> set_bytes (toy_sha "ab").
Proof. eexists. vm_compute. split; [reflexivity|discriminate]. Qed.

(** ** C20 *)
Theorem C20_universal_hash : forall x y,
  let image z := (z * uh_A + uh_B) mod uh_P in
  Z.odd (UniversalHashToInt x) = true /\ 1 <= UniversalHashToInt x <= uh_P /\
  (UniversalHashToInt x = image x \/ UniversalHashToInt x = image x + 1) /\
  (UniversalHashToInt x = UniversalHashToInt y -> Z.abs (image x - image y) <= 1) /\
  (image x = image y <-> (uh_P | x - y)).
Proof.
  intros x y. cbv zeta. split; [|split; [|split; [|split]]].
  - destruct (UniversalHash_cases x) as [[_ H]|(_ & H & _)]; exact H.
  - apply UniversalHash_range.
  - destruct (UniversalHash_cases x) as [[H _]|(H & _)]; auto.
  - destruct (UniversalHash_cases x) as [[E1 _]|(E1 & _)], (UniversalHash_cases y) as [[E2 _]|(E2 & _)]; lia.
  - assert (HP : 0 < uh_P) by (rewrite uh_P_val; reflexivity). split; intros H.
    + assert (D : (uh_P | uh_A * (x - y))).
      { replace (uh_A * (x - y)) with ((x * uh_A + uh_B) - (y * uh_A + uh_B)) by ring.
        apply Z.mod_divide; [lia|]. now rewrite Zminus_mod, H, Z.sub_diag, Z.mod_0_l by lia. }
      apply Z.gauss in D; [exact D|]. rewrite Z.gcd_comm. exact uh_coprime.
    + destruct H as [k Hk]. replace x with (y + k * uh_P) by lia.
      replace ((y + k * uh_P) * uh_A + uh_B) with ((y * uh_A + uh_B) + (k * uh_A) * uh_P) by ring.
      now rewrite Z.mod_add by lia.
Qed.
Example C20_case : UniversalHashToInt 3 <> UniversalHashToInt (-3) /\ UniversalHashToInt 0 = uh_B.
Proof. vm_compute. split; [discriminate|reflexivity]. Qed.

(** ** C23 *)
Theorem C23_bench_set : forall num,
  (num < 0 -> GenBenchSet num = Panic) /\
  (0 <= num -> exists set, GenBenchSet num = Ret set /\ Z.of_nat (length set) = num /\ NoDup set /\
     Forall decimal_string set /\
     forall i, 0 <= i < num -> nth_error set (Z.to_nat i) = Some (dec i)).
Proof.
  intros num. unfold GenBenchSet. split; intros H.
  - destruct (Z.ltb_spec num 0); [reflexivity|lia].
  - destruct (Z.ltb_spec num 0); [lia|]. eexists. split; [reflexivity|].
    rewrite map_length, seq_length. split; [lia|]. split; [|split].
    + apply FinFun.Injective_map_NoDup; [|apply seq_NoDup].
      intros a b E. apply dec_inj in E. lia.
    + apply Forall_forall. intros s Hs. apply in_map_iff in Hs. destruct Hs as (i & <- & _).
      apply set_string10_decimal. rewrite set_string10_dec. discriminate.
    + intros i Hi. rewrite nth_error_map.
      rewrite (nth_error_nth' _ 0%nat) by (rewrite seq_length; lia).
      rewrite seq_nth by lia. cbn. do 2 f_equal. lia.
Qed.
Example C23_case : GenBenchSet 11 = Ret ["0"; "1"; "2"; "3"; "4"; "5"; "6"; "7"; "8"; "9"; "10"]%string.
Proof. vm_compute. reflexivity. Qed.

(** ** C24 *)
Theorem C24_trusted_setup : let s := TrustedSetup in
  Z.odd (sN s) = true /\ bit_len (sN s) = 2048 /\
  1 < sG s < sN s /\ 1 < sH s < sN s /\
  Z.gcd (sG s) (sN s) = 1 /\ Z.gcd (sH s) (sN s) = 1 /\ sG s <> sH s.
Proof. exact TrustedSetup_facts. Qed.

Print Assumptions C17_division_intractable.
Print Assumptions C18_representatives.
Print Assumptions C19_hash_to_prime.
Print Assumptions C20_universal_hash.
Print Assumptions C23_bench_set.
Print Assumptions C24_trusted_setup.
