(** Theorems for property C111: how many goroutines the parallel functions start.

    The comments of ProveMembershipParallel, its variants with a table (concurrent.go:47, 101, 174, 229) and of
    SetProductParallel (common.go:169) say: "It uses at most O(2^limit) Goroutines". *)
From Coq Require Import ZArith Bool Lia List.
From Verif Require Import GoBig GoBigFacts AccModel HashModel HashProofs AccFacts Spec ForkJoin ParModel AccParModel ParIterModel PropertiesAcc PropertiesParIter.
Import ListNotations.
Open Scope Z_scope.

Section Count.
Context {task val : Type}.
Variable expand : task -> outcome (action task val).

(** the goroutine a step of the schedule is about *)
Fixpoint mover (g : gtree task val) (path : list nat) : option (gtree task val) :=
  match path with
  | [] => Some g
  | i :: p =>
      match g with
      | GWait _ _ kids => match nth_error kids i with Some kid => mover kid p | None => None end
      | _ => None
      end
  end.
(** go statements executed in the step *)
Definition started_by (g : gtree task val) (path : list nat) : nat :=
  match mover g path with
  | Some (GRun t) => match expand t with Ret (Fork kids _) => length kids | _ => 0%nat end
  | _ => 0%nat
  end.
(** go statements executed in a run *)
Fixpoint started (g : outcome (gtree task val)) (sched : list (list nat)) : nat :=
  match sched, g with
  | p :: r, Ret g' => match gstep expand g' p with Some g'' => (started_by g' p + started g'' r)%nat | None => 0%nat end
  | _, _ => 0%nat
  end.
(** goroutines that have been started and have not ended, the caller included *)
Fixpoint living (g : gtree task val) : nat :=
  match g with GWait _ _ kids => S (list_sum (map living kids)) | _ => 1%nat end.

Variable count : task -> nat.
Hypothesis count_ok : forall t a, expand t = Ret a ->
  count t = match a with Leaf _ => 0%nat | Fork kids _ => (length kids + list_sum (map count kids))%nat end.

Fixpoint rest (g : gtree task val) : nat :=
  match g with GRun t => count t | GWait _ _ kids => list_sum (map rest kids) | GDone _ => 0%nat end.

Lemma list_sum_upd : forall (f : gtree task val -> nat) kids i kid kid', nth_error kids i = Some kid ->
  (list_sum (map f (firstn i kids ++ kid' :: skipn (S i) kids)) + f kid = list_sum (map f kids) + f kid')%nat.
Proof.
  induction kids as [|k kids IH]; intros [|i] kid kid' H; try discriminate.
  - injection H as ->. change (firstn 0 (kid :: kids)) with (@nil (gtree task val)). change (skipn 1 (kid :: kids)) with kids.
    cbn [app map list_sum fold_right]. lia.
  - cbn [nth_error] in H. specialize (IH i kid kid' H). change (firstn (S i) (k :: kids)) with (k :: firstn i kids).
    change (skipn (S (S i)) (k :: kids)) with (skipn (S i) kids). cbn [app map]. change (list_sum (?a :: ?l)) with (a + list_sum l)%nat. 
    unfold list_sum in *. cbn [fold_right]. lia.
Qed.
Lemma rest_runs : forall ts, list_sum (map rest (map (fun t => GRun t) ts)) = list_sum (map count ts).
Proof. intros ts. rewrite map_map. reflexivity. Qed.
Lemma living_runs : forall ts, list_sum (map living (map (fun t => GRun t) ts)) = length ts.
Proof. induction ts as [|t ts IH]; [reflexivity|]. cbn [map length]. unfold list_sum in *. cbn [fold_right living]. now rewrite IH. Qed.

Lemma count_step : forall p g o, gstep expand g p = Some o ->
  match o with
  | Ret g' => (rest g' + started_by g p = rest g /\ living g' <= living g + started_by g p)%nat
  | _ => started_by g p = 0%nat
  end.
Proof.
  induction p as [|i p IH]; intros g o H.
  - destruct g as [t|k got kids|w]; cbn [gstep] in H; [|destruct kids as [|[t|k' got' kids'|w] kids]; try discriminate H|discriminate H].
    + unfold started_by. cbn [mover]. destruct (expand t) as [[v|ts k]| |] eqn:E; injection H as <-; [| |reflexivity..].
      * pose proof (count_ok _ _ E) as C. cbn [rest living]. rewrite C. split; lia.
      * pose proof (count_ok _ _ E) as C. cbn [rest living]. rewrite rest_runs, living_runs, C. split; lia.
    + injection H as <-. unfold started_by. cbn. split; lia.
    + injection H as <-. unfold started_by. cbn [mover rest living map]. unfold list_sum. cbn [fold_right rest living]. split; lia.
  - destruct g as [t|k got kids|w]; cbn [gstep] in H; try discriminate H.
    unfold started_by. cbn [mover]. destruct (nth_error kids i) as [kid|] eqn:Ei; [|discriminate H].
    destruct (gstep expand kid p) as [o'|] eqn:Ek; [|discriminate H]. specialize (IH kid o' Ek). unfold started_by in IH.
    destruct o' as [kid'| |]; injection H as <-; [|exact IH..]. destruct IH as [I1 I2].
    pose proof (list_sum_upd rest kids i kid kid' Ei) as U1. pose proof (list_sum_upd living kids i kid kid' Ei) as U2.
    revert I1 I2. generalize (match mover kid p with Some (GRun t) => match expand t with Ret (Fork ts _) => length ts | _ => 0%nat end | _ => 0%nat end).
    intros z I1 I2. change (match kids with [] => [] | _ :: l0 => skipn i l0 end) with (skipn (S i) kids).
    change (rest (GWait k got ?l)) with (list_sum (map rest l)). change (living (GWait k got ?l)) with (S (list_sum (map living l))).
    revert U1 U2. generalize (firstn i kids ++ kid' :: skipn (S i) kids). intros l U1 U2. split; lia.
Qed.

Lemma count_run : forall sched g st, grun expand (Ret g) sched = Some st ->
  (started (Ret g) sched <= rest g)%nat /\
  (forall g', st = Ret g' -> (rest g' + started (Ret g) sched = rest g /\ living g' <= living g + started (Ret g) sched)%nat).
Proof.
  induction sched as [|p r IH]; intros g st H; cbn [grun started] in *.
  - injection H as <-. split; [lia|]. intros g' [= <-]. lia.
  - destruct (gstep expand g p) as [o|] eqn:E; [|discriminate H]. pose proof (count_step _ _ _ E) as C. destruct o as [g2| |].
    + destruct C as [C1 C2]. destruct (IH _ _ H) as [I1 I2]. split; [lia|]. intros g' Eg. specialize (I2 g' Eg). lia.
    + rewrite C. split; [destruct r; cbn; lia|]. intros g' ->. destruct r; discriminate H.
    + rewrite C. split; [destruct r; cbn; lia|]. intros g' ->. destruct r; discriminate H.
Qed.
End Count.

(** ** what is claimed *)
Section Claims.
Context {task val : Type}.
Variable expand : task -> outcome (action task val).
(** in every run, also an unfinished one, at most b goroutines are started, so with the caller at most b + 1 exist at a time *)
Definition uses_at_most (t : task) (b : Z) : Prop :=
  forall sched st, grun expand (Ret (GRun t)) sched = Some st ->
    Z.of_nat (started expand (Ret (GRun t)) sched) <= b /\ forall g, st = Ret g -> Z.of_nat (living g) <= 1 + b.
(** every run that returns starts b goroutines *)
Definition starts_exactly (t : task) (b : Z) : Prop :=
  forall sched v, grun expand (Ret (GRun t)) sched = Some (Ret (GDone v)) -> Z.of_nat (started expand (Ret (GRun t)) sched) = b.

Variable count : task -> nat.
Hypothesis count_ok : forall t a, expand t = Ret a ->
  count t = match a with Leaf _ => 0%nat | Fork kids _ => (length kids + list_sum (map count kids))%nat end.
Lemma uses_count : forall t b, Z.of_nat (count t) <= b -> uses_at_most t b.
Proof.
  intros t b Hb sched st H. destruct (count_run expand count count_ok _ _ _ H) as [C1 C2]. cbn [rest] in C1. split; [lia|].
  intros g Eg. specialize (C2 g Eg). cbn [rest living] in C2. lia.
Qed.
Lemma starts_count : forall t b, Z.of_nat (count t) = b -> starts_exactly t b.
Proof.
  intros t b Hb sched v H. destruct (count_run expand count count_ok _ _ _ H) as [_ C2]. specialize (C2 _ eq_refl). cbn [rest] in C2. lia.
Qed.
End Claims.

(** ** counting the tasks *)
Lemma go_slice_len : forall A (s l : list A) a b, go_slice s a b = Ret l -> length l = (b - a)%nat.
Proof.
  intros A s l a b H. assert (E := H). unfold go_slice in E. destruct ((a <=? b)%nat && (b <=? length s)%nat) eqn:C; [|discriminate E].
  apply andb_prop in C. destruct C as [C1 C2]. apply Nat.leb_le in C1. apply Nat.leb_le in C2.
  injection E as <-. rewrite firstn_length, skipn_length. lia.
Qed.

Fixpoint chan_count (limit n : nat) : nat :=
  match limit with
  | O => 0
  | S l => if n <=? 4 then 0 else 2 + (chan_count l (n / 2) + chan_count l (n - n / 2))
  end%nat.
Definition quarter_count (limit n : nat) : nat :=
  (4 + (chan_count limit (n / 4) + (chan_count limit (n / 2 - n / 4) + (chan_count limit (n * 3 / 4 - n / 2) + chan_count limit (n - n * 3 / 4)))))%nat.
Definition pm_count (t : pm_task) : nat :=
  match t with
  | PMParallel _ set limit | PMTable _ set limit =>
      if limit <=? 0 then 0%nat else if (length set <=? 4)%nat then 0%nat else quarter_count (Z.to_nat (limit - 2)) (length set)
  | PMRandomizer _ _ set limit | PMRandomizerChan _ _ set limit =>
      if limit <=? 0 then 0%nat else quarter_count (Z.to_nat (limit - 2)) (length set)
  | PMChan _ set limit => chan_count (Z.to_nat limit) (length set)
  end.

Ltac step_ret E :=
  match type of E with
  | bind ?x _ = Ret _ => let v := fresh "v" in let W := fresh "W" in destruct x as [v| |] eqn:W; cbn [bind] in E; [|discriminate E..]
  end.

Lemma quarter_counts : forall N base set limit a, quarter N base set limit = Ret a ->
  match a with Leaf _ => 0%nat | Fork kids _ => (length kids + list_sum (map pm_count kids))%nat end = quarter_count (Z.to_nat limit) (length set).
Proof.
  intros N base set limit a E. unfold quarter in E. do 13 step_ret E.
  apply go_slice_len in W, W0, W1, W2, W3, W4.
  destruct v11 as [|b0 [|b1 [|b2 [|b3 [|? ?]]]]]; try discriminate E. injection E as <-.
  cbn [map pm_count length]. unfold quarter_count, list_sum. cbn [fold_right]. rewrite W1, W2, W3, W4, Nat.sub_0_r. lia.
Qed.
Lemma leaf_counts : forall x a, leaf x = Ret a -> match a with Leaf _ => 0%nat | Fork kids _ => (length kids + list_sum (map pm_count kids))%nat end = 0%nat.
Proof. intros x a E. unfold leaf in E. step_ret E. injection E as <-. reflexivity. Qed.

Lemma pm_count_ok : forall N t a, pm_expand N t = Ret a ->
  pm_count t = match a with Leaf _ => 0%nat | Fork kids _ => (length kids + list_sum (map pm_count kids))%nat end.
Proof.
  intros N t a E. symmetry. destruct t as [base set limit|base set limit|base r set limit|base r set limit|base set limit]; cbn [pm_expand pm_count] in *.
  1,2: destruct (limit <=? 0); [now apply leaf_counts in E|]; destruct (length set <=? 4)%nat; [now apply leaf_counts in E|now apply quarter_counts in E].
  1,2: destruct (limit <=? 0); [now apply leaf_counts in E|now apply quarter_counts in E].
  destruct (Z.leb_spec limit 0) as [L|L]; [apply leaf_counts in E; rewrite E; now replace (Z.to_nat limit) with 0%nat by lia|].
  destruct (Z.to_nat limit) as [|l] eqn:El; [lia|]. cbn [chan_count].
  destruct (length set <=? 4)%nat; [now apply leaf_counts in E|]. do 5 step_ret E. apply go_slice_len in W, W0.
  destruct v3 as [|b0 [|b1 [|? ?]]]; try discriminate E. injection E as <-. cbn [map pm_count length]. unfold list_sum. cbn [fold_right].
  rewrite W, W0, Nat.sub_0_r. replace (Z.to_nat (limit - 1)) with l by lia. lia.
Qed.

Fixpoint product_count (fuel : nat) (limit : Z) (n : nat) : nat :=
  match fuel with
  | O => 0
  | S f => if (limit =? 0)%Z then 0 else if n <=? 2 then 0 else 2 + (product_count f (limit - 1) (n / 2) + product_count f (limit - 1) (n - n / 2))
  end%nat.
Lemma product_fuel : forall f g limit n, (n <= f)%nat -> (n <= g)%nat -> product_count f limit n = product_count g limit n.
Proof.
  induction f as [|f IH]; intros [|g] limit n Hf Hg; cbn [product_count]; [reflexivity| | |].
  - destruct (limit =? 0); [reflexivity|]. destruct (Nat.leb_spec n 2); [reflexivity|lia].
  - destruct (limit =? 0); [reflexivity|]. destruct (Nat.leb_spec n 2); [reflexivity|lia].
  - destruct (limit =? 0); [reflexivity|]. destruct (Nat.leb_spec n 2); [reflexivity|].
    assert (n / 2 < n)%nat by (apply Nat.div_lt; lia). assert (1 <= n / 2)%nat by (apply Nat.div_le_lower_bound; lia).
    rewrite (IH g), (IH g (limit - 1) (n - n / 2)%nat) by lia. reflexivity.
Qed.
Definition sp_count (t : sp_task) : nat := match t with SPTop set limit | SPChan set limit => product_count (length set) limit (length set) end.
Lemma sp_count_ok : forall t a, sp_expand t = Ret a ->
  sp_count t = match a with Leaf _ => 0%nat | Fork kids _ => (length kids + list_sum (map sp_count kids))%nat end.
Proof.
  assert (G : forall set limit a,
    (if limit =? 0 then do v <- SetProductRecursiveFast set; Ret (Leaf v)
     else if (length set <=? 2)%nat then do v <- SetProductRecursiveFast set; Ret (Leaf v)
     else do s1 <- go_slice set 0 (length set / 2); do s2 <- go_slice set (length set / 2) (length set);
          Ret (Fork [SPChan s1 (limit - 1); SPChan s2 (limit - 1)] mul2)) = Ret a ->
    product_count (length set) limit (length set) = match a with Leaf _ => 0%nat | Fork kids _ => (length kids + list_sum (map sp_count kids))%nat end).
  { intros set limit a E. rewrite (product_fuel _ (S (length set))) by lia. cbn [product_count].
    destruct (limit =? 0); [step_ret E; injection E as <-; reflexivity|].
    destruct (Nat.leb_spec (length set) 2) as [L|L]; [step_ret E; injection E as <-; reflexivity|].
    do 2 step_ret E. injection E as <-. apply go_slice_len in W, W0. rewrite Nat.sub_0_r in W.
    cbn [map sp_count length]. unfold list_sum. cbn [fold_right]. rewrite W, W0.
    assert (length set / 2 < length set)%nat by (apply Nat.div_lt; lia). 
    rewrite (product_fuel (length set) (length set / 2)) by lia.
    rewrite (product_fuel (length set) (length set - length set / 2)) by lia. lia. }
  intros [set limit|set limit] a E; exact (G set limit a E).
Qed.

(** ** bounds *)
Lemma chan_count_limit : forall l n, (chan_count l n + 2 <= 2 ^ (l + 1))%nat.
Proof.
  induction l as [|l IH]; intros n; cbn [chan_count]; [cbn; lia|].
  pose proof (IH (n / 2)%nat). pose proof (IH (n - n / 2)%nat). replace (2 ^ (S l + 1))%nat with (2 * 2 ^ (l + 1))%nat by (cbn [Nat.add Nat.pow]; lia).
  assert (2 <= 2 ^ (l + 1))%nat by (apply (Nat.pow_le_mono_r 2 1); lia). destruct (n <=? 4)%nat; lia.
Qed.
Lemma chan_count_size : forall l n, (2 <= n -> chan_count l n + 2 <= n)%nat.
Proof.
  induction l as [|l IH]; intros n Hn; cbn [chan_count]; [lia|]. destruct (Nat.leb_spec n 4); [lia|].
  assert (2 <= n / 2)%nat by (apply Nat.div_le_lower_bound; lia). assert (n / 2 < n)%nat by (apply Nat.div_lt; lia).
  assert (n / 2 * 2 <= n)%nat by (pose proof (Nat.div_mod n 2); lia).
  pose proof (IH (n / 2)%nat). pose proof (IH (n - n / 2)%nat). lia.
Qed.
Lemma chan_count_small : forall l n, (n <= 4 -> chan_count l n = 0)%nat.
Proof. intros [|l] n Hn; cbn [chan_count]; [reflexivity|]. destruct (Nat.leb_spec n 4); [reflexivity|lia]. Qed.
Lemma chan_count_exact : forall l n, (5 * 2 ^ (l - 1) <= n -> chan_count l n + 2 = 2 ^ (l + 1))%nat.
Proof.
  induction l as [|l IH]; intros n Hn; cbn [chan_count]; [reflexivity|].
  assert (1 <= 2 ^ (S l - 1))%nat by (apply Nat.neq_0_lt_0, Nat.pow_nonzero; lia).
  destruct (Nat.leb_spec n 4); [lia|]. replace (2 ^ (S l + 1))%nat with (2 * 2 ^ (l + 1))%nat by (cbn [Nat.add Nat.pow]; lia).
  destruct l as [|l]; [cbn; lia|]. replace (S (S l) - 1)%nat with (S l) in Hn by lia. cbn [Nat.pow] in Hn.
  replace (S l - 1)%nat with l in IH by lia.
  assert (5 * 2 ^ l <= n / 2)%nat by (apply Nat.div_le_lower_bound; lia).
  assert (n / 2 * 2 <= n)%nat by (pose proof (Nat.div_mod n 2); lia).
  pose proof (IH (n / 2)%nat). pose proof (IH (n - n / 2)%nat). lia.
Qed.

Lemma quarters : forall n, (5 <= n -> 1 <= n / 4 /\ 1 <= n / 2 - n / 4 /\ 1 <= n * 3 / 4 - n / 2 /\ 1 <= n - n * 3 / 4 /\
  n / 4 + (n / 2 - n / 4) + (n * 3 / 4 - n / 2) + (n - n * 3 / 4) = n)%nat.
Proof.
  intros n Hn. pose proof (Nat.div_mod n 4 ltac:(lia)). pose proof (Nat.mod_upper_bound n 4 ltac:(lia)).
  pose proof (Nat.div_mod n 2 ltac:(lia)). pose proof (Nat.mod_upper_bound n 2 ltac:(lia)).
  pose proof (Nat.div_mod (n * 3) 4 ltac:(lia)). pose proof (Nat.mod_upper_bound (n * 3) 4 ltac:(lia)). lia.
Qed.
Lemma chan_count_size' : forall l n, (1 <= n -> chan_count l n + 1 <= n)%nat.
Proof. intros l n Hn. destruct (Nat.eq_dec n 1) as [->|]; [rewrite chan_count_small; lia|]. pose proof (chan_count_size l n). lia. Qed.

Lemma quarter_count_limit : forall limit n, 0 < limit -> Z.of_nat (quarter_count (Z.to_nat (limit - 2)) n) <= 2 ^ (limit + 1).
Proof.
  intros limit n Hl. unfold quarter_count. set (l := Z.to_nat (limit - 2)).
  pose proof (chan_count_limit l (n / 4)). pose proof (chan_count_limit l (n / 2 - n / 4)).
  pose proof (chan_count_limit l (n * 3 / 4 - n / 2)). pose proof (chan_count_limit l (n - n * 3 / 4)).
  destruct (Z.eq_dec limit 1) as [->|N1]; [change (2 ^ (1 + 1)) with 4; subst l; cbn [Z.sub Z.to_nat Z.add Z.opp Z.pos_sub chan_count]; cbn; lia|].
  replace (limit + 1) with (Z.of_nat (l + 1) + 2) by lia. rewrite Z.pow_add_r by lia. change (2 ^ 2) with 4.
  rewrite <- (Nat2Z.inj_pow 2). lia.
Qed.
Lemma quarter_sizes : forall n, (n / 4 <= n / 2 - n / 4 /\ n / 4 <= n * 3 / 4 - n / 2 /\ n / 4 <= n - n * 3 / 4)%nat.
Proof.
  intros n. pose proof (Nat.div_mod n 4 ltac:(lia)). pose proof (Nat.mod_upper_bound n 4 ltac:(lia)).
  pose proof (Nat.div_mod n 2 ltac:(lia)). pose proof (Nat.mod_upper_bound n 2 ltac:(lia)).
  pose proof (Nat.div_mod (n * 3) 4 ltac:(lia)). pose proof (Nat.mod_upper_bound (n * 3) 4 ltac:(lia)). lia.
Qed.
Lemma quarter_count_exact : forall limit n, 2 <= limit -> 5 * 2 ^ (limit - 1) <= Z.of_nat n -> Z.of_nat (quarter_count (Z.to_nat (limit - 2)) n) = 2 ^ (limit + 1) - 4.
Proof.
  intros limit n Hl Hn. unfold quarter_count. destruct (Z.eq_dec limit 2) as [->|N2]; [reflexivity|].
  destruct (Z.to_nat (limit - 2)) as [|l] eqn:El; [lia|]. replace (limit - 1) with (Z.of_nat l + 2) in Hn by lia. replace (limit + 1) with (Z.of_nat (S l + 1) + 2) by lia.
  rewrite Z.pow_add_r in * by lia. change (2 ^ 2) with 4 in *. rewrite <- (Nat2Z.inj_pow 2) in *.
  assert (Q : (5 * 2 ^ (S l - 1) <= n / 4)%nat) by (replace (S l - 1)%nat with l by lia; apply Nat.div_le_lower_bound; lia).
  destruct (quarter_sizes n) as (Q1 & Q2 & Q3).
  pose proof (chan_count_exact (S l) (n / 4) Q). pose proof (chan_count_exact (S l) (n / 2 - n / 4) ltac:(lia)).
  pose proof (chan_count_exact (S l) (n * 3 / 4 - n / 2) ltac:(lia)). pose proof (chan_count_exact (S l) (n - n * 3 / 4) ltac:(lia)). lia.
Qed.

(** ** C111: the membership provers *)
Theorem C111_membership : forall N base r set limit,
  let n := Z.of_nat (length set) in
  uses_at_most (pm_expand N) (PMParallel base set limit) (Z.min n (2 ^ (limit + 1))) /\
  uses_at_most (pm_expand N) (PMTable base set limit) (Z.min n (2 ^ (limit + 1))) /\
  uses_at_most (pm_expand N) (PMRandomizer base r set limit) (2 ^ (limit + 1)) /\
  uses_at_most (pm_expand N) (PMRandomizerChan base r set limit) (2 ^ (limit + 1)).
Proof.
  intros N base r set limit n.
  assert (P : 0 <= 2 ^ (limit + 1)) by (apply Z.pow_nonneg; lia).
  assert (S : (5 <= length set)%nat -> Z.of_nat (quarter_count (Z.to_nat (limit - 2)) (length set)) <= n).
  { intros H5. destruct (quarters _ H5) as (A1 & A2 & A3 & A4 & A5). unfold quarter_count. set (l := Z.to_nat (limit - 2)).
    pose proof (chan_count_size' l _ A1). pose proof (chan_count_size' l _ A2). pose proof (chan_count_size' l _ A3). pose proof (chan_count_size' l _ A4). lia. }
  assert (A : Z.of_nat (if limit <=? 0 then 0%nat else if (length set <=? 4)%nat then 0%nat else quarter_count (Z.to_nat (limit - 2)) (length set)) <= Z.min n (2 ^ (limit + 1))).
  { destruct (Z.leb_spec limit 0); [lia|]. destruct (Nat.leb_spec (length set) 4); [lia|].
    pose proof (quarter_count_limit limit (length set) ltac:(lia)). pose proof (S ltac:(lia)). lia. }
  assert (B : Z.of_nat (if limit <=? 0 then 0%nat else quarter_count (Z.to_nat (limit - 2)) (length set)) <= 2 ^ (limit + 1)).
  { destruct (Z.leb_spec limit 0); [lia|]. now apply quarter_count_limit. }
  split; [|split; [|split]]; (apply (uses_count _ pm_count (pm_count_ok N)); assumption).
Qed.

(** The bound is reached by every set that is large enough: the limit is an exponent, not a number of goroutines. *)
Theorem C111_exact : forall N base r set limit, 2 <= limit -> 5 * 2 ^ (limit - 1) <= Z.of_nat (length set) ->
  let b := 2 ^ (limit + 1) - 4 in
  starts_exactly (pm_expand N) (PMParallel base set limit) b /\ starts_exactly (pm_expand N) (PMTable base set limit) b /\
  starts_exactly (pm_expand N) (PMRandomizer base r set limit) b /\ starts_exactly (pm_expand N) (PMRandomizerChan base r set limit) b.
Proof.
  intros N base r set limit Hl Hn b. pose proof (quarter_count_exact limit (length set) Hl Hn) as E. fold b in E.
  assert (2 ^ 1 <= 2 ^ (limit - 1)) by (apply Z.pow_le_mono_r; lia). change (2 ^ 1) with 2 in *.
  split; [|split; [|split]]; apply (starts_count _ pm_count (pm_count_ok N)); cbn [pm_count];
    (destruct (Z.leb_spec limit 0); [lia|]); try (destruct (Nat.leb_spec (length set) 4); [lia|]); exact E.
Qed.

(** AccAndProveParallel passes the number of workers as limit, so it starts two to that number of goroutines. *)
Theorem C111_workers : forall sha is_prime poseidon cpus fuel set encodeType setup t k, (4 <= cpus)%nat ->
  AccAndProveParallel sha is_prime poseidon cpus fuel set encodeType setup = Ret (t, k) ->
  exists w : nat, (w <= cpus < 2 * w)%nat /\
    uses_at_most (pm_expand (sN setup)) t (Z.min (Z.of_nat (length set)) (2 ^ (Z.of_nat w + 1))) /\
    (5 * 2 ^ (Z.of_nat w - 1) <= Z.of_nat (length set) -> starts_exactly (pm_expand (sN setup)) t (2 ^ (Z.of_nat w + 1) - 4)).
Proof.
  intros sha is_prime poseidon cpus fuel set encodeType setup t k Hc E. unfold AccAndProveParallel in E. step_ret E.
  apply GenRep_length in W. destruct (C12_worker_count cpus ltac:(lia)) as (j & Ew & W1 & W2). rewrite Ew in E. cbn [bind] in E. injection E as <- <-.
  exists (2 ^ j)%nat. assert (K : (cpus < 2 * 2 ^ j)%nat).
  { destruct (Nat.lt_ge_cases cpus (2 ^ S j)) as [L|L]; [exact L|]. specialize (W2 _ L). lia. }
  split; [lia|]. rewrite <- W. split; [exact (proj1 (C111_membership _ _ 0 _ _))|].
  intros H. refine (proj1 (C111_exact _ _ 0 _ _ _ H)). lia.
Qed.

(** ** C111: the product *)
Lemma product_count_limit : forall f limit n, 0 <= limit -> Z.of_nat (product_count f limit n) + 2 <= 2 ^ (limit + 1).
Proof.
  induction f as [|f IH]; intros limit n Hl; cbn [product_count].
  - assert (2 ^ 1 <= 2 ^ (limit + 1)) by (apply Z.pow_le_mono_r; lia). change (2 ^ 1) with 2 in *. lia.
  - destruct (Z.eqb_spec limit 0) as [->|Nz]; [cbn; lia|].
    assert (2 ^ 1 <= 2 ^ (limit + 1)) by (apply Z.pow_le_mono_r; lia). change (2 ^ 1) with 2 in *.
    destruct (n <=? 2)%nat; [lia|]. pose proof (IH (limit - 1) (n / 2)%nat ltac:(lia)). pose proof (IH (limit - 1) (n - n / 2)%nat ltac:(lia)).
    rewrite Z.pow_add_r by lia. change (2 ^ 1) with 2. replace (limit - 1 + 1) with limit in * by lia. lia.
Qed.
Lemma product_count_size : forall f limit n, (product_count f limit n <= 2 * n)%nat /\ (2 <= n -> product_count f limit n + 4 <= 2 * n)%nat.
Proof.
  induction f as [|f IH]; intros limit n; cbn [product_count]; [lia|]. destruct (limit =? 0); [lia|]. destruct (Nat.leb_spec n 2); [lia|].
  assert (1 <= n / 2)%nat by (apply Nat.div_le_lower_bound; lia). assert (n / 2 * 2 <= n)%nat by (pose proof (Nat.div_mod n 2); lia).
  destruct (IH (limit - 1) (n / 2)%nat) as [A1 A2]. destruct (IH (limit - 1) (n - n / 2)%nat) as [B1 B2].
  destruct (Nat.eq_dec (n / 2) 1) as [E|Ne]; [|lia]. rewrite E in *.
  assert (Z1 : product_count f (limit - 1) 1 = 0%nat) by (destruct f; cbn [product_count]; [reflexivity|]; destruct (limit - 1 =? 0); reflexivity). lia.
Qed.
Theorem C111_product_partial : forall set limit,
  (0 <= limit -> uses_at_most sp_expand (SPTop set limit) (2 ^ (limit + 1))) /\
  uses_at_most sp_expand (SPTop set limit) (2 * Z.of_nat (length set)).
Proof.
  intros set limit. split; [intros Hl|]; apply (uses_count _ sp_count sp_count_ok); cbn [sp_count].
  - pose proof (product_count_limit (length set) limit (length set) Hl). lia.
  - destruct (product_count_size (length set) limit (length set)). lia.
Qed.

(** With a negative limit the countdown never meets zero: the number of goroutines grows with the set. *)
Lemma product_count_negative : forall k f limit, limit < 0 -> (2 ^ S k <= f)%nat -> (product_count f limit (2 ^ S k) + 2 = 2 ^ S k)%nat.
Proof.
  induction k as [|k IH]; intros f limit Hl Hf.
  - destruct f as [|f]; [reflexivity|]. cbn [product_count]. destruct (Z.eqb_spec limit 0); [lia|]. reflexivity.
  - assert (P : (2 <= 2 ^ S k)%nat) by (apply (Nat.pow_le_mono_r 2 1); lia).
    replace (2 ^ S (S k))%nat with (2 * 2 ^ S k)%nat in * by reflexivity. set (m := (2 ^ S k)%nat) in *.
    destruct f as [|f]; [lia|]. cbn [product_count]. destruct (Z.eqb_spec limit 0); [lia|]. destruct (Nat.leb_spec (2 * m) 2); [lia|].
    replace (2 * m / 2)%nat with m by (symmetry; rewrite Nat.mul_comm; apply Nat.div_mul; lia). replace (2 * m - m)%nat with m by lia.
    pose proof (IH f (limit - 1) ltac:(lia) ltac:(lia)). lia.
Qed.
Theorem C111_product_refuted : exists limit, 2 ^ (limit + 1) = 1 /\ forall B, exists set b, B < b /\ starts_exactly sp_expand (SPTop set limit) b /\
  always_returns sp_expand (SPTop set limit) (product set).
Proof.
  exists (-1). split; [reflexivity|]. intros B. set (k := Z.to_nat (B + 2)). exists (repeat 1 (2 ^ S k)), (2 ^ Z.of_nat (S k) - 2).
  split; [|split; [|apply C02_set_product_parallel]].
  - assert (Z.of_nat (S k) < 2 ^ Z.of_nat (S k)) by (apply Z.pow_gt_lin_r; lia). lia.
  - apply (starts_count _ sp_count sp_count_ok). cbn [sp_count]. rewrite repeat_length.
    pose proof (product_count_negative k (2 ^ S k) (-1) ltac:(lia) ltac:(lia)) as E. rewrite <- (Nat2Z.inj_pow 2). lia.
Qed.

(** a run of each: five elements with limit 1 start four goroutines, six elements with limit -1 start six *)
Fixpoint first_move {task val} (g : gtree task val) : option (list nat) :=
  match g with
  | GRun _ => Some []
  | GDone _ => None
  | GWait _ _ kids => match kids with
      | [] | GDone _ :: _ => Some []
      | kid :: _ => option_map (cons 0%nat) (first_move kid)
      end
  end.
Fixpoint follow {task val} (expand : task -> outcome (action task val)) (fuel : nat) (g : gtree task val) : list (list nat) :=
  match fuel, first_move g with
  | S f, Some p => p :: match gstep expand g p with Some (Ret g') => follow expand f g' | _ => [] end
  | _, _ => []
  end.
Example C111_case :
  (let t := PMParallel 3 [2; 3; 5; 7; 11] 1 in let sched := follow (pm_expand 101) 99 (GRun t) in
   grun (pm_expand 101) (Ret (GRun t)) sched = Some (Ret (GDone [60; 17; 21; 6; 65])) /\ started (pm_expand 101) (Ret (GRun t)) sched = 4%nat) /\
  (let t := SPTop [2; 3; 5; 7; 11; 13] (-1) in let sched := follow sp_expand 99 (GRun t) in
   grun sp_expand (Ret (GRun t)) sched = Some (Ret (GDone 30030)) /\ started sp_expand (Ret (GRun t)) sched = 6%nat) /\
  5 * 2 ^ (4 - 1) <= Z.of_nat (length (repeat 3 40)).
Proof. vm_compute. repeat split; try reflexivity. discriminate. Qed.

Print Assumptions C111_membership. Print Assumptions C111_exact. Print Assumptions C111_workers. Print Assumptions C111_product_partial. Print Assumptions C111_product_refuted.
