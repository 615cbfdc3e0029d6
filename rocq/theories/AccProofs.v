(** Proofs about the sequential accumulator functions. *)
From Coq Require Import ZArith Bool Lia List ZifyNat ZifyBool Permutation.
From Verif Require Import GoBig GoBigFacts Spec AccModel AccFacts.
Import ListNotations.
Open Scope Z_scope.

Ltac Zify.zify_post_hook ::= Z.to_euclidean_division_equations.

Notation nonneg := (Forall (fun x => 0 <= x)).

Ltac wit_eq :=
  repeat first
    [ match goal with
      | |- _ :: _ = _ :: _ => f_equal
      | |- _ mod _ = _ mod _ => f_equal
      | |- _ ^ _ = _ ^ _ => f_equal
      | |- Ret _ = Ret _ => f_equal
      | |- _ ++ _ = _ ++ _ => f_equal
      | |- wit _ _ _ _ = wit _ _ _ _ => f_equal
      end ]; try reflexivity; try ring.

(** when is a base usable for a set: it must be reduced unless some exponentiation happens *)
Definition base_ok (base N : Z) (set : list Z) : Prop :=
  (2 <= length set)%nat \/ 0 <= base < N.

Lemma handleSmallSet_spec : forall base N set, 0 < N -> nonneg set -> (1 <= length set <= 4)%nat ->
  base_ok base N set -> handleSmallSet base N set = Ret (wit base N 1 set).
Proof.
  intros base N set HN H Hl Hb.
  destruct set as [|x0 [|x1 [|x2 [|x3 [|x4 set]]]]]; cbn [length] in *; try lia;
    cbn [handleSmallSet];
    repeat match goal with H : Forall _ (_ :: _) |- _ => inversion H; clear H; subst end.
  - destruct Hb as [Hb|Hb]; [cbn [length] in Hb; lia|]. cbn [wit]. do 2 f_equal.
    change (base = base ^ (1 * 1) mod N). rewrite Z.mul_1_l, Z.pow_1_r, Z.mod_small; lia.
  - rewrite multi_exp_spec by (auto; repeat constructor; auto). cbn [map wit].
    unfold product; cbn [fold_right]. rewrite !Z.mul_1_r, !Z.mul_1_l. reflexivity.
  - rewrite multi_exp_spec by (auto; repeat constructor; nia). cbn [map wit bind app].
    rewrite AccumulateNew_spec by nia.
    unfold product; cbn [fold_right]. rewrite !Z.mul_1_r, !Z.mul_1_l. reflexivity.
  - rewrite multi_exp_spec by (auto; repeat constructor; nia). cbn [map wit bind app].
    unfold product; cbn [fold_right]. rewrite !Z.mul_1_r, !Z.mul_1_l.
    wit_eq.
Qed.

Lemma prove_membership_spec : forall f base N set, 0 < N -> nonneg set ->
  (1 <= length set)%nat -> (length set <= f)%nat -> base_ok base N set ->
  prove_membership f base N set = Ret (wit base N 1 set).
Proof.
  induction f; intros base N set HN H Hl Hf Hb; [lia|].
  cbn [prove_membership]. destruct (Nat.leb_spec (length set) 4).
  - now apply handleSmallSet_spec.
  - set (n := length set) in *.
    rewrite !go_slice_ret by lia. cbn [bind]. rewrite !SetProductRecursiveFast_spec. cbn [bind].
    assert (P : forall a b, 0 <= product (slice set a b)) by (intros; apply product_nonneg, slice_Forall; assumption).
    rewrite multi_exp_spec
      by (auto; repeat apply Forall_cons; try apply Forall_nil; apply Z.mul_nonneg_nonneg; apply P).
    cbn [map bind].
    rewrite !IHf; cbn [bind]; auto using slice_Forall;
      try (rewrite slice_length by lia; lia);
      try (right; apply Z.mod_pos_bound; lia).
    rewrite !wit_base by (auto using slice_Forall; try lia; apply Z.mul_nonneg_nonneg; apply P).
    f_equal. rewrite !Z.mul_1_r.
    rewrite <- (slice_full _ set) at 13. fold n.
    rewrite (slice_app _ set 0 (n / 2) n), (slice_app _ set 0 (n / 4) (n / 2)),
      (slice_app _ set (n / 2) (n * 3 / 4) n) by lia.
    rewrite !wit_app, !product_app, <- !app_assoc.
    wit_eq.
Qed.

Lemma ProveMembership_wit : forall base N set, 0 < N -> nonneg set ->
  set <> [] -> base_ok base N set ->
  ProveMembership base N set = Ret (wit base N 1 set).
Proof.
  intros base N set HN H Hne Hb. apply prove_membership_spec; auto.
  destruct set; [congruence|cbn; lia].
Qed.

Lemma ProveMembership_empty : forall base N, ProveMembership base N [] = Panic.
Proof. reflexivity. Qed.

(** ** statements in the vocabulary of Spec.v *)
Lemma ProveMembership_witnesses : forall base N set, 0 < N -> 0 <= base < N -> nonneg set ->
  set <> [] -> exists proofs, ProveMembership base N set = Ret proofs /\ witnesses base N set proofs.
Proof.
  intros. eexists. split.
  - apply ProveMembership_wit; auto. now right.
  - apply wit_witnesses.
Qed.

Lemma without_product : forall (l : list Z) i x, nth_error l i = Some x ->
  product (without i l) * x = product l.
Proof.
  induction l as [|y l IH]; intros i x; [destruct i; discriminate|].
  destruct i; cbn [nth_error].
  - intros [= <-]. unfold without. cbn [firstn skipn app]. rewrite product_cons. ring.
  - intros H. apply IH in H. change (without (S i) (y :: l)) with (y :: without i l).
    rewrite !product_cons, <- H. ring.
Qed.

Lemma without_Forall : forall A (P : A -> Prop) i l, Forall P l -> Forall P (without i l).
Proof.
  intros A P i l H. unfold without. apply Forall_app. split.
  - rewrite <- (firstn_skipn i l) in H. apply Forall_app in H. tauto.
  - rewrite <- (firstn_skipn (S i) l) in H. apply Forall_app in H. tauto.
Qed.

Lemma witness_verifies : forall base N set proofs i w x, 0 < N -> nonneg set ->
  witnesses base N set proofs -> nth_error proofs i = Some w -> nth_error set i = Some x ->
  verifies N w x (base ^ product set mod N).
Proof.
  intros base N set proofs i w x HN H [_ Hw] Hi Hx. unfold verifies.
  rewrite (Hw _ _ Hi). rewrite pow_mod_mul.
  - now rewrite (without_product _ _ _ Hx).
  - apply product_nonneg. now apply without_Forall.
  - eapply Forall_forall in H; [exact H|]. now apply nth_error_In in Hx.
Qed.

(** randomised single-thread version *)
Lemma Randomizer_spec : forall base r N set, 0 < N -> 0 <= r -> nonneg set -> (4 <= length set)%nat ->
  ProveMembershipSingleThreadWithRandomizer base r N set = Ret (wit base N r set).
Proof.
  intros base r N set HN Hr H Hl. unfold ProveMembershipSingleThreadWithRandomizer.
  set (n := length set) in *.
  rewrite !go_slice_ret by lia. cbn [bind]. rewrite !SetProductRecursiveFast_spec. cbn [bind].
  assert (P : forall a b, 0 <= product (slice set a b)) by (intros; apply product_nonneg, slice_Forall; assumption).
  rewrite multi_exp_spec
    by (auto; repeat apply Forall_cons; try apply Forall_nil;
        repeat apply Z.mul_nonneg_nonneg; try apply P; assumption).
  cbn [map bind].
  assert (NE : forall a b, (a < b <= n)%nat -> slice set a b <> []).
  { intros a b Hab E. pose proof (slice_length _ set a b ltac:(lia)) as L. rewrite E in L. cbn in L. lia. }
  rewrite !ProveMembership_wit; cbn [bind]; auto using slice_Forall;
    try (apply NE; lia); try (right; apply Z.mod_pos_bound; lia).
  rewrite !wit_base by (auto using slice_Forall; try lia; repeat apply Z.mul_nonneg_nonneg; try apply P; assumption).
  rewrite !Z.mul_1_r.
  transitivity (Ret (wit base N r (slice set 0 n))); [|unfold n; now rewrite slice_full].
  rewrite (slice_app _ set 0 (n / 2) n), (slice_app _ set 0 (n / 4) (n / 2)),
    (slice_app _ set (n / 2) (n * 3 / 4) n) by lia.
  rewrite !wit_app, !product_app, <- !app_assoc.
  wit_eq.
Qed.

Lemma Randomizer_small : forall base r N set, 0 < N -> 0 <= r -> nonneg set -> (length set < 4)%nat ->
  ProveMembershipSingleThreadWithRandomizer base r N set = Panic.
Proof.
  intros base r N set HN Hr H Hl. unfold ProveMembershipSingleThreadWithRandomizer.
  set (n := length set) in *.
  rewrite !go_slice_ret by lia. cbn [bind]. rewrite !SetProductRecursiveFast_spec. cbn [bind].
  assert (P : forall a b, 0 <= product (slice set a b)) by (intros; apply product_nonneg, slice_Forall; assumption).
  rewrite multi_exp_spec
    by (auto; repeat apply Forall_cons; try apply Forall_nil;
        repeat apply Z.mul_nonneg_nonneg; try apply P; assumption).
  cbn [map bind]. replace (n / 4)%nat with 0%nat by lia. reflexivity.
Qed.

Lemma wit_map_pow : forall base N set e, 0 <= e -> 0 < N -> nonneg set ->
  wit base N e set = map (fun p => p ^ e mod N) (wit base N 1 set).
Proof.
  intros base N set e He HN H. apply list_nth_ext.
  - now rewrite map_length, !wit_length.
  - intros i x y Hx Hy. apply wit_nth in Hx. rewrite nth_error_map in Hy.
    destruct (nth_error (wit base N 1 set) i) eqn:E; [|discriminate]. cbn in Hy. injection Hy as <-.
    apply wit_nth in E. subst.
    assert (0 <= product (without i set)) by (apply product_nonneg; now apply without_Forall).
    rewrite pow_mod_mul by lia. f_equal. f_equal. ring.
Qed.

Lemma Randomizer_witnesses : forall base r N set proofs, 0 < N -> 0 <= r -> nonneg set -> (4 <= length set)%nat ->
  ProveMembershipSingleThreadWithRandomizer base r N set = Ret proofs ->
  length proofs = length set /\
  (forall i w, nth_error proofs i = Some w -> w = base ^ (r * product (without i set)) mod N) /\
  (forall i w x, nth_error proofs i = Some w -> nth_error set i = Some x ->
     verifies N w x (base ^ (r * product set) mod N)).
Proof.
  intros base r N set proofs HN Hr H Hl E. rewrite Randomizer_spec in E by assumption.
  injection E as <-. split; [apply wit_length|]. split; [intros; now apply wit_nth|].
  intros i w x Hw Hx. apply wit_nth in Hw. subst w. unfold verifies.
  rewrite pow_mod_mul.
  - rewrite <- (without_product _ _ _ Hx). f_equal. f_equal. ring.
  - apply Z.mul_nonneg_nonneg; [assumption|]. apply product_nonneg. now apply without_Forall.
  - eapply Forall_forall in H; [exact H|]. now apply nth_error_In in Hx.
Qed.

(** accumulate-and-prove *)
Lemma finish_acc_spec : forall N base rep, 0 < N -> nonneg rep -> rep <> [] ->
  finish_acc N rep (wit base N 1 rep) = Ret (base ^ product rep mod N, wit base N 1 rep).
Proof.
  intros N base rep HN H Hne. destruct rep as [|x rep]; [congruence|].
  unfold finish_acc, go_index. cbn [wit nth_error deref bind].
  inversion H; subst. pose proof (product_nonneg rep H3).
  rewrite AccumulateNew_spec by assumption. rewrite pow_mod_mul by nia.
  rewrite product_cons. replace (1 * product rep * x) with (x * product rep) by ring. reflexivity.
Qed.

Lemma AccAndProve_rep_spec : forall G N rep, 0 < N -> 0 <= G < N -> nonneg rep -> rep <> [] ->
  AccAndProve_rep G N rep = Ret (G ^ product rep mod N, wit G N 1 rep).
Proof.
  intros. unfold AccAndProve_rep. rewrite ProveMembership_wit by (auto; now right).
  cbn [bind]. now apply finish_acc_spec.
Qed.

Lemma ZKAccumulate_rep_spec : forall G N r rep, 0 < N -> 0 <= r -> nonneg rep -> rep <> [] ->
  ZKAccumulate_rep G N r rep = Ret (G ^ (r * product rep) mod N, wit G N r rep).
Proof.
  intros G N r rep HN Hr H Hne. unfold ZKAccumulate_rep. rewrite AccumulateNew_spec by assumption.
  rewrite ProveMembership_wit by (auto; right; apply Z.mod_pos_bound; lia).
  cbn [bind]. rewrite finish_acc_spec by assumption.
  rewrite wit_base, pow_mod_mul by (auto; try lia; now apply product_nonneg).
  now rewrite Z.mul_1_r.
Qed.

(** ** order independence and incrementality *)
Lemma acc_permutation : forall base N s1 s2, Permutation s1 s2 ->
  base ^ product s1 mod N = base ^ product s2 mod N.
Proof. intros base N s1 s2 H. now rewrite (product_perm _ _ H). Qed.

Lemma without_perm : forall (l : list Z) i x, nth_error l i = Some x ->
  Permutation l (x :: without i l).
Proof.
  induction l as [|y l IH]; intros i x; [destruct i; discriminate|].
  destruct i; cbn [nth_error].
  - intros [= <-]. reflexivity.
  - intros H. change (without (S i) (y :: l)) with (y :: without i l).
    apply IH in H. rewrite H at 1. apply perm_swap.
Qed.

Lemma witness_permutation : forall base N s1 s2 p1 p2 i j x w1 w2,
  Permutation s1 s2 -> witnesses base N s1 p1 -> witnesses base N s2 p2 ->
  nth_error s1 i = Some x -> nth_error s2 j = Some x ->
  nth_error p1 i = Some w1 -> nth_error p2 j = Some w2 -> w1 = w2.
Proof.
  intros base N s1 s2 p1 p2 i j x w1 w2 HP [_ H1] [_ H2] Hi Hj Hw1 Hw2.
  rewrite (H1 _ _ Hw1), (H2 _ _ Hw2). do 2 f_equal. apply product_perm.
  apply without_perm in Hi. apply without_perm in Hj.
  apply Permutation_cons_inv with (a := x). rewrite <- Hi, <- Hj. assumption.
Qed.

Lemma accumulate_app : forall base N A B, 0 < N -> nonneg A -> nonneg B ->
  AccumulateNew (base ^ product A mod N) (product B) N = base ^ product (A ++ B) mod N.
Proof.
  intros. rewrite AccumulateNew_spec by (auto; now apply product_nonneg).
  rewrite pow_mod_mul by now apply product_nonneg. now rewrite product_app.
Qed.

Lemma nth_error_app_left : forall A (l1 l2 : list A) i x, nth_error l1 i = Some x ->
  nth_error (l1 ++ l2) i = Some x.
Proof. intros. rewrite nth_error_app1; [assumption|]. apply nth_error_Some. congruence. Qed.

Lemma witness_update : forall base N A y p p' i w w', 0 < N -> nonneg A -> 0 <= y ->
  witnesses base N A p -> witnesses base N (A ++ [y]) p' ->
  nth_error p i = Some w -> nth_error p' i = Some w' ->
  AccumulateNew w y N = w'.
Proof.
  intros base N A y p p' i w w' HN HA Hy [L H] [_ H'] Hw Hw'.
  assert (i < length A)%nat by (rewrite <- L; apply nth_error_Some; congruence).
  rewrite AccumulateNew_spec by assumption. rewrite (H _ _ Hw), (H' _ _ Hw').
  rewrite pow_mod_mul; auto.
  - f_equal. f_equal. unfold without.
    rewrite firstn_app, skipn_app. replace (i - length A)%nat with 0%nat by lia.
    replace (S i - length A)%nat with 0%nat by lia. cbn [firstn skipn].
    rewrite app_nil_r, !product_app. unfold product at 5. cbn. ring.
  - apply product_nonneg. now apply without_Forall.
Qed.
