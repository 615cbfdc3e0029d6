(** Facts about slices, products and witness lists. *)
From Coq Require Import ZArith Bool Lia List ZifyNat ZifyBool Permutation.
From Verif Require Import GoBig GoBigFacts Spec AccModel.
Import ListNotations.
Open Scope Z_scope.

Ltac Zify.zify_post_hook ::= Z.to_euclidean_division_equations.

(** ** slices *)
Definition slice {A} (s : list A) (a b : nat) : list A := firstn (b - a) (skipn a s).

Lemma go_slice_ret : forall A (s : list A) a b, (a <= b <= length s)%nat ->
  go_slice s a b = Ret (slice s a b).
Proof.
  intros A s a b H. unfold go_slice.
  destruct (Nat.leb_spec a b); [|lia]. destruct (Nat.leb_spec b (length s)); [reflexivity|lia].
Qed.

Lemma slice_length : forall A (s : list A) a b, (a <= b <= length s)%nat ->
  length (slice s a b) = (b - a)%nat.
Proof. intros. unfold slice. rewrite firstn_length, skipn_length. lia. Qed.

Lemma slice_full : forall A (s : list A), slice s 0 (length s) = s.
Proof. intros. unfold slice. cbn [skipn]. rewrite Nat.sub_0_r. apply firstn_all. Qed.

Lemma skipn_add : forall A (s : list A) a u, skipn (a + u) s = skipn u (skipn a s).
Proof.
  intros A s a u. revert s. induction a; intros s; [reflexivity|]. destruct s; cbn [skipn plus].
  - now destruct u.
  - apply IHa.
Qed.
Lemma firstn_add : forall A (t : list A) u v, firstn (u + v) t = firstn u t ++ firstn v (skipn u t).
Proof.
  intros A t u v. revert t.
  induction u; intros t; [reflexivity|]. destruct t; cbn [firstn skipn plus app].
  - now rewrite firstn_nil.
  - f_equal. apply IHu.
Qed.
Lemma slice_app : forall A (s : list A) a b c, (a <= b <= c)%nat ->
  slice s a c = slice s a b ++ slice s b c.
Proof.
  intros A s a b c H. unfold slice.
  replace (c - a)%nat with ((b - a) + (c - b))%nat by lia.
  rewrite firstn_add, <- skipn_add. do 3 f_equal. lia.
Qed.

Lemma slice_Forall : forall A (P : A -> Prop) s a b, Forall P s -> Forall P (slice s a b).
Proof.
  intros A P s a b H. unfold slice. apply Forall_forall. intros x Hx.
  eapply Forall_forall in H; [exact H|].
  assert (In x (skipn a s)) as Hi by (rewrite <- (firstn_skipn (b - a) (skipn a s)); apply in_or_app; now left).
  rewrite <- (firstn_skipn a s). apply in_or_app. now right.
Qed.

(** ** products *)
Lemma product_app : forall l1 l2, product (l1 ++ l2) = product l1 * product l2.
Proof.
  induction l1 as [|x l1 IH]; intros; unfold product in *; cbn [app fold_right]; [lia|].
  rewrite IH. ring.
Qed.
Lemma product_cons : forall x l, product (x :: l) = x * product l.
Proof. reflexivity. Qed.
Lemma fold_left_mul : forall l a, fold_left Z.mul l a = a * product l.
Proof.
  induction l as [|x l IH]; intros a; cbn [fold_left]; [unfold product; cbn; lia|].
  rewrite IH, product_cons. ring.
Qed.
Lemma product_nonneg : forall l, Forall (fun x => 0 <= x) l -> 0 <= product l.
Proof.
  induction 1; [unfold product; cbn; lia|]. rewrite product_cons. nia.
Qed.
Lemma product_perm : forall l1 l2, Permutation l1 l2 -> product l1 = product l2.
Proof. induction 1; rewrite ?product_cons in *; try congruence. lia. Qed.

Lemma SetProduct_spec : forall l, SetProduct l = product l.
Proof. intros. unfold SetProduct. rewrite fold_left_mul. lia. Qed.
Lemma SetProduct2_spec : forall l, SetProduct2 l = product l.
Proof. intros. unfold SetProduct2. rewrite fold_left_mul. lia. Qed.

Lemma set_product_recursive_spec : forall f l, (length l <= f)%nat ->
  set_product_recursive f l = Ret (product l).
Proof.
  induction f; intros l Hl; cbn [set_product_recursive].
  - destruct (Nat.leb_spec (length l) 2); [|lia]. rewrite fold_left_mul. f_equal. lia.
  - destruct (Nat.leb_spec (length l) 2).
    + rewrite fold_left_mul. f_equal. lia.
    + rewrite !go_slice_ret by lia. cbn [bind].
      rewrite !IHf by (rewrite slice_length by lia; lia). cbn [bind].
      rewrite <- product_app, <- slice_app, slice_full by lia. reflexivity.
Qed.
Lemma SetProductRecursive_spec : forall l, SetProductRecursive l = Ret (product l).
Proof. intros. now apply set_product_recursive_spec. Qed.

Lemma set_product_recursive_fast_spec : forall f l, (length l <= f)%nat ->
  set_product_recursive_fast f l = Ret (product l).
Proof.
  induction f; intros l Hl; cbn [set_product_recursive_fast].
  - destruct (Nat.leb_spec (length l) 2); [|lia]. rewrite fold_left_mul. f_equal. lia.
  - destruct (Nat.leb_spec (length l) 2).
    + rewrite fold_left_mul. f_equal. lia.
    + rewrite !go_slice_ret by lia. cbn [bind].
      rewrite !IHf by (rewrite slice_length by lia; lia). cbn [bind].
      rewrite <- product_app, <- slice_app, slice_full by lia. reflexivity.
Qed.
Lemma SetProductRecursiveFast_spec : forall l, SetProductRecursiveFast l = Ret (product l).
Proof. intros. now apply set_product_recursive_fast_spec. Qed.

(** ** the list of witnesses, [e] being a factor contributed by elements outside the list *)
Fixpoint wit (base N e : Z) (set : list Z) : list Z :=
  match set with
  | [] => []
  | x :: r => base ^ (e * product r) mod N :: wit base N (e * x) r
  end.

Lemma wit_length : forall base N set e, length (wit base N e set) = length set.
Proof. induction set; intros; cbn [wit length]; [reflexivity|]. now rewrite IHset. Qed.

Lemma wit_app : forall base N l1 l2 e,
  wit base N e (l1 ++ l2) = wit base N (e * product l2) l1 ++ wit base N (e * product l1) l2.
Proof.
  induction l1 as [|x l1 IH]; intros; cbn [app wit].
  - unfold product at 1; cbn. f_equal. lia.
  - rewrite product_app, IH, product_cons. f_equal.
    + f_equal. f_equal. ring.
    + f_equal; f_equal; ring.
Qed.

Lemma wit_base : forall base N set e f, 0 <= e -> 0 <= f -> Forall (fun x => 0 <= x) set ->
  wit (base ^ e mod N) N f set = wit base N (e * f) set.
Proof.
  induction set as [|x set IH]; intros e f He Hf H; [reflexivity|].
  inversion H; subst. cbn [wit]. pose proof (product_nonneg set H3).
  rewrite pow_mod_mul by nia. f_equal.
  - f_equal. f_equal. ring.
  - rewrite IH by (auto; nia). f_equal. ring.
Qed.

Lemma wit_nth : forall base N set e i w, nth_error (wit base N e set) i = Some w ->
  w = base ^ (e * product (without i set)) mod N.
Proof.
  induction set as [|x set IH]; intros e i w; [destruct i; discriminate|].
  destruct i; cbn [nth_error wit without firstn skipn app].
  - intros [= <-]. unfold without. reflexivity.
  - intros H. apply IH in H. subst w. unfold without. cbn [firstn skipn app].
    rewrite product_cons. f_equal. f_equal. unfold without. ring.
Qed.

Lemma wit_witnesses : forall base N set, witnesses base N set (wit base N 1 set).
Proof.
  intros. split; [apply wit_length|]. intros i w H. apply wit_nth in H. subst w.
  now rewrite Z.mul_1_l.
Qed.


Lemma list_nth_ext : forall A (l1 l2 : list A), length l1 = length l2 ->
  (forall i x y, nth_error l1 i = Some x -> nth_error l2 i = Some y -> x = y) -> l1 = l2.
Proof.
  induction l1; destruct l2; cbn [length]; intros Hl H; try discriminate; [reflexivity|].
  f_equal.
  - apply (H 0%nat); reflexivity.
  - apply IHl1; [lia|]. intros i x y Hx Hy. apply (H (S i)); assumption.
Qed.

Lemma witnesses_unique : forall base N set p1 p2,
  witnesses base N set p1 -> witnesses base N set p2 -> p1 = p2.
Proof.
  intros base N set p1 p2 [L1 H1] [L2 H2]. apply list_nth_ext; [congruence|].
  intros i x y Hx Hy. rewrite (H1 _ _ Hx), (H2 _ _ Hy). reflexivity.
Qed.

(** ** exponentiation of a list of exponents *)
Lemma multi_exp_spec : forall base N es, 0 < N -> Forall (fun x => 0 <= x) es ->
  multi_exp base N es = Ret (map (fun e => base ^ e mod N) es).
Proof.
  intros base N es HN. unfold multi_exp. induction 1; cbn [map_outcome map]; [reflexivity|].
  rewrite big_exp_nonneg by assumption. cbn [deref bind]. rewrite IHForall. reflexivity.
Qed.

Lemma AccumulateNew_spec : forall g e N, 0 < N -> 0 <= e -> AccumulateNew g e N = g ^ e mod N.
Proof. intros. unfold AccumulateNew. now apply exp_recv_nonneg. Qed.

Lemma accumulate_val_spec : forall set g N, 0 < N -> Forall (fun x => 0 <= x) set -> set <> [] ->
  accumulate_val g N set = g ^ product set mod N.
Proof.
  intros set g N HN H. revert g. induction H as [|x set Hx H IH]; intros g Hne; [congruence|].
  cbn [accumulate_val fold_left]. change (fold_left _ set ?a) with (accumulate_val a N set).
  rewrite exp_recv_nonneg by assumption.
  destruct set as [|y set].
  - cbn. now rewrite Z.mul_1_r.
  - rewrite IH by discriminate. rewrite product_cons with (x := x).
    rewrite pow_mod_mul; auto. now apply product_nonneg.
Qed.
Lemma accumulate_val_spec' : forall set g N, 0 < N -> 0 <= g < N -> Forall (fun x => 0 <= x) set ->
  accumulate_val g N set = g ^ product set mod N.
Proof.
  intros set g N HN Hg H. destruct set.
  - change (g = g ^ 1 mod N). rewrite Z.pow_1_r, Z.mod_small; lia.
  - now apply accumulate_val_spec.
Qed.
