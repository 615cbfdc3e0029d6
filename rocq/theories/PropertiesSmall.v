(** Theorems for property C92: arguments of positivity and range proofs of small numbers.

    Prove of the argument of positivity of x asks ThreeSquares for 4x + 1, the range proof of x in [a, b] for
    4(b - x)(x - a) + 1. Every number of this form is a sum of three squares. *)
From Coq Require Import ZArith Bool Lia List String.
From Verif Require Import GoBig GoBigFacts Spec Sched FSModel PokeModel SquaresModel SquaresProofs RangeModel RangeProofs
  PropertiesHash PropertiesPoke PropertiesSquares PropertiesRange SmallSquares.
Import ListNotations.
Open Scope Z_scope.

(** some run on a machine with that many CPUs decomposes n *)
Definition finds_on (GCD : Z * Z -> Z * Z -> Z * Z) (is_prime : Z -> bool) (cpus : nat) (n : Z) : Prop :=
  exists v, can_return (ts_step GCD is_prime) ts_ret (ts_start n cpus) v.

(** the numbers below 2048 whose positivity can be proved on no machine *)
Definition never_proved : list Z := [0; 6; 42; 72; 156; 272; 420; 930; 1056; 1332; 1640; 1980].
Definition small_xs : list Z := map Z.of_nat (seq 0 2048).
Definition stuck (cpus x : Z) : bool := match cpus_needed (4 * x + 1) with None => true | Some k => cpus <=? k end.
Definition table : list (Z * option Z) := map (fun x => (x, cpus_needed (4 * x + 1))) small_xs.
Definition stuck_in (cpus : Z) (t : list (Z * option Z)) : list Z :=
  map fst (filter (fun p => match snd p with None => true | Some k => cpus <=? k end) t).

Lemma small_range : forall x, 0 <= x < 2048 -> 0 <= 4 * x + 1 < 2 ^ 13 /\ (4 * x + 1) mod 4 = 1.
Proof.
  intros x Hx. change (2 ^ 13) with 8192. split; [lia|]. rewrite Z.add_comm, Z.mul_comm, Z_mod_plus_full. reflexivity.
Qed.
Lemma stuck_spec : forall GCD is_prime, gcd_spec GCD -> forall x cpus, 0 <= x < 2048 ->
  (stuck (Z.of_nat cpus) x = true <-> ~ finds_on GCD is_prime cpus (4 * x + 1)).
Proof.
  intros GCD is_prime HG x cpus Hx. destruct (small_range x Hx) as [B M]. unfold finds_on.
  rewrite (small_dec GCD is_prime HG _ cpus B M). unfold stuck. destruct (cpus_needed (4 * x + 1)) as [k|].
  - rewrite Z.leb_le. split; [intros H (k' & [= <-] & L); lia|]. intros H.
    destruct (Z_le_gt_dec (Z.of_nat cpus) k) as [|G]; [assumption|]. exfalso. apply H. exists k. split; [reflexivity|lia].
  - split; [intros _ (k & E & _); discriminate|reflexivity].
Qed.
Lemma small_xs_in : forall x, In x small_xs <-> 0 <= x < 2048.
Proof.
  intros x. unfold small_xs. rewrite in_map_iff. split.
  - intros (i & <- & Hi). apply in_seq in Hi. lia.
  - intros H. exists (Z.to_nat x). split; [lia|]. apply in_seq. lia.
Qed.
Lemma stuck_in_table : forall cpus, stuck_in cpus table = filter (stuck cpus) small_xs.
Proof.
  intros cpus. unfold stuck_in, table, stuck. induction small_xs as [|x l IH]; [reflexivity|]. cbn [map filter snd].
  destruct (match cpus_needed (4 * x + 1) with Some k => cpus <=? k | None => true end); cbn [map fst]; now rewrite IH.
Qed.
Lemma small_xs_NoDup : NoDup small_xs.
Proof. apply FinFun.Injective_map_NoDup; [intros a b E; lia|apply seq_NoDup]. Qed.

(** one computation for all machine sizes *)
Lemma table_values :
  (let t := table in
   (map (fun c => List.length (stuck_in c t)) [1; 2; 3; 4; 8; 16; 36], stuck_in 37 t,
    filter (fun p => match snd p with None => true | Some _ => false end) t)) =
  ([1131; 649; 403; 279; 77; 18; 13]%nat, never_proved, map (fun x => (x, None)) never_proved).
Proof. vm_compute. reflexivity. Qed.
Lemma table_facts : exists t, t = table /\
  (map (fun c => List.length (stuck_in c t)) [1; 2; 3; 4; 8; 16; 36], stuck_in 37 t,
    filter (fun p => match snd p with None => true | Some _ => false end) t) =
  ([1131; 649; 403; 279; 77; 18; 13]%nat, never_proved, map (fun x => (x, None)) never_proved).
Proof. exists table. split; [reflexivity|exact table_values]. Qed.

Theorem C92_positivity_partial : forall GCD is_prime, gcd_spec GCD -> forall x, 0 <= x < 2048 ->
  (* with at least 37 CPUs all but twelve values are found *)
  (forall cpus, (37 <= cpus)%nat -> (finds_on GCD is_prime cpus (4 * x + 1) <-> ~ In x never_proved)) /\
  (* and these twelve on no machine *)
  (In x never_proved -> forall cpus, ~ finds_on GCD is_prime cpus (4 * x + 1)).
Proof.
  intros GCD is_prime HG x Hx. destruct table_facts as (t & Et & T).
  pose proof (f_equal snd T) as T3. pose proof (f_equal (fun p => snd (fst p)) T) as T2. cbn [fst snd] in T2, T3. clear T.
  rewrite Et in T2, T3. rewrite stuck_in_table in T2.
  assert (N : In x never_proved -> cpus_needed (4 * x + 1) = None).
  { intros H. assert (I : In (x, None) (map (fun x => (x, @None Z)) never_proved)) by (apply in_map_iff; eauto).
    rewrite <- T3 in I. apply filter_In in I. destruct I as [I _]. unfold table in I. apply in_map_iff in I.
    destruct I as (y & [= <- E] & _). exact E. }
  assert (NV : In x never_proved -> forall cpus, ~ finds_on GCD is_prime cpus (4 * x + 1)).
  { intros H cpus. apply stuck_spec; [assumption..|]. unfold stuck. now rewrite (N H). }
  split; [|exact NV]. intros cpus Hc. split.
  - intros F H. exact (NV H cpus F).
  - intros H. destruct (stuck 37 x) eqn:S.
    + exfalso. apply H. rewrite <- T2. apply filter_In. split; [now apply small_xs_in|exact S].
    + unfold stuck in S. destruct (small_range x Hx) as [B M]. apply (small_dec GCD is_prime HG _ cpus B M).
      destruct (cpus_needed (4 * x + 1)) as [k|]; [|discriminate]. exists k. split; [reflexivity|]. apply Z.leb_gt in S. lia.
Qed.

(** how many of the 2048 values cannot be proved on machines of usual sizes *)
Theorem C92_counts : forall GCD is_prime, gcd_spec GCD -> forall cpus c,
  In (cpus, c) [(1, 1131); (2, 649); (3, 403); (4, 279); (8, 77); (16, 18); (36, 13); (37, 12)]%nat ->
  exists l, NoDup l /\ List.length l = c /\
    forall x, In x l <-> 0 <= x < 2048 /\ ~ finds_on GCD is_prime cpus (4 * x + 1).
Proof.
  intros GCD is_prime HG cpus c Hin. destruct table_facts as (t & Et & T). 
  pose proof (f_equal (fun p => fst (fst p)) T) as T1. pose proof (f_equal (fun p => snd (fst p)) T) as T2. cbn [fst snd] in T1, T2. clear T.
  cbn [map] in T1. injection T1 as T1 T1a T1b T1c T1d T1e T1f. subst t.
  exists (stuck_in (Z.of_nat cpus) table). rewrite stuck_in_table. split; [apply NoDup_filter, small_xs_NoDup|]. split.
  - rewrite <- stuck_in_table. repeat (destruct Hin as [[= <- <-]|Hin]; [try assumption|]); [|destruct Hin].
    change (Z.of_nat 37) with 37. rewrite T2. reflexivity.
  - intros x. rewrite filter_In, small_xs_in. split; intros [A B]; (split; [exact A|]); now apply (stuck_spec GCD is_prime HG).
Qed.

(** ** what the provers make of it *)
(** ThreeSquares on a machine with that many CPUs *)
Definition squares_on (GCD : Z * Z -> Z * Z -> Z * Z) (is_prime : Z -> bool) (cpus : nat) (TS : Z -> outcome Int3) : Prop :=
  forall n v, TS n = Ret v -> 0 <= n /\ can_return (ts_step GCD is_prime) ts_ret (ts_start n cpus) v.
Lemma squares_on_oracle : forall GCD is_prime cpus TS, squares_on GCD is_prime cpus TS -> squares_oracle GCD is_prime TS.
Proof.
  intros GCD is_prime cpus TS H n v E. destruct (H n v E) as [Hn C]. exists cpus, (ts_start n cpus). split; [|exact C].
  unfold ts_init. now rewrite (proj2 (Z.ltb_ge n 0)).
Qed.
(** no argument of positivity for the twelve values, no range proof when (b - x)(x - a) is one of them: in
    particular none for the end points of the range *)
Theorem C92_never : forall sha GCD is_prime cpus TS, gcd_spec GCD -> squares_on GCD is_prime cpus TS ->
  (forall pp r x k v, In x never_proved -> AoP_Prove sha TS pp r x k <> Ret v) /\
  (forall pp r a b x k v, In ((b - x) * (x - a)) never_proved -> RP_Prove sha TS pp r a b x k <> Ret v) /\
  (forall pp r a b k v, RP_Prove sha TS pp r a b a k <> Ret v /\ RP_Prove sha TS pp r a b b k <> Ret v).
Proof.
  intros sha GCD is_prime cpus TS HG HT.
  assert (NR : forall x v, In x never_proved -> TS (Z.shiftl x 2 + 1) <> Ret v).
  { intros x v H E. rewrite Z.shiftl_mul_pow2 in E by lia. change (2 ^ 2) with 4 in E. rewrite Z.mul_comm in E.
    destruct (HT _ _ E) as [_ C].
    assert (Hx : 0 <= x < 2048) by (clear -H; cbn in H; repeat (destruct H as [<-|H]; [lia|]); destruct H).
    apply (proj2 (C92_positivity_partial GCD is_prime HG x Hx) H cpus). now exists v. }
  assert (RN : forall pp r a b x k v, In ((b - x) * (x - a)) never_proved -> RP_Prove sha TS pp r a b x k <> Ret v).
  { intros pp r a b x k v H E. unfold RP_Prove in E. destruct (calC pp r x); cbn [bind] in E; try discriminate.
    destruct (calCa pp a _); cbn [bind] in E; try discriminate.
    destruct (TS (Z.shiftl ((b - x) * (x - a)) 2 + 1)) eqn:ET; cbn [bind] in E; try discriminate. now apply (NR _ _ H) in ET. }
  split; [|split; [exact RN|]].
  - intros pp r x k v H E. unfold AoP_Prove in E. destruct (calC pp r x); cbn [bind] in E; try discriminate.
    destruct (TS (Z.shiftl x 2 + 1)) eqn:ET; cbn [bind] in E; try discriminate. now apply (NR _ _ H) in ET.
  - intros pp r a b k v. split; apply RN; [replace ((b - a) * (a - a)) with 0 by ring|replace ((b - b) * (b - a)) with 0 by ring]; cbn; auto.
Qed.
(** 6 is not negative, 4 * 6 + 1 = 5^2, yet nobody can prove 6 >= 0, or 2 in [0, 5] *)
Theorem C92_positivity_refuted : exists x v a b y, 0 <= x /\ three_squares_of (4 * x + 1) v /\ a < y < b /\
  forall sha GCD is_prime cpus TS, gcd_spec GCD -> squares_on GCD is_prime cpus TS ->
  (forall pp r k w, AoP_Prove sha TS pp r x k <> Ret w) /\ (forall pp r k w, RP_Prove sha TS pp r a b y k <> Ret w).
Proof.
  exists 6, (5, 0, 0), 0, 5, 2. split; [lia|]. split; [cbn; lia|]. split; [lia|]. intros sha GCD is_prime cpus TS HG HT.
  destruct (C92_never sha GCD is_prime cpus TS HG HT) as (A & R & _). split.
  - intros pp r k w. apply A. cbn. auto.
  - intros pp r k w. apply R. cbn. auto.
Qed.
(** the premises are met: a gcd, and the machine's own results as an oracle *)
Lemma toy_squares_on : squares_on gauss_gcd (fun _ => true) 8 toy_squares.
Proof.
  intros n v H. unfold toy_squares in H. destruct (Z.eqb_spec n 5) as [->|]; [|discriminate]. injection H as <-.
  split; [lia|]. apply C42_lost_result_8.
Qed.
Example C92_case : gcd_spec gauss_gcd /\ squares_on gauss_gcd (fun _ => true) 8 toy_squares /\
  finds_on gauss_gcd (fun _ => true) 37 (4 * 100 + 1) /\ ~ finds_on gauss_gcd (fun _ => true) 37 (4 * 1980 + 1) /\
  exists w, AoP_Prove toy_sha toy_squares {| ppN := 77; ppG := 4; ppH := 9 |} 5 1
    {| ac_r3 := (1, 2, 3); ac_m3 := (4, 5, 6); ac_s3 := (7, 8, 9); ac_s := 10 |} = Ret w.
Proof.
  split; [exact gauss_gcd_spec|]. split; [exact toy_squares_on|]. split; [|split].
  - apply (C92_positivity_partial gauss_gcd _ gauss_gcd_spec 100); [lia..|]. cbn. lia.
  - apply (C92_positivity_partial gauss_gcd _ gauss_gcd_spec 1980); [lia|]. cbn. tauto.
  - eexists. vm_compute. reflexivity.
Qed.

Print Assumptions C92_positivity_partial.
Print Assumptions C92_counts.
Print Assumptions C92_never.
Print Assumptions C92_positivity_refuted.
