(** Proofs about the fork-join functions. *)
From Coq Require Import ZArith Bool Lia List ZifyNat ZifyBool.
From Verif Require Import GoBig GoBigFacts Spec AccModel AccFacts AccProofs ForkJoin ParModel.
Import ListNotations.
Open Scope Z_scope.

Ltac Zify.zify_post_hook ::= Z.to_euclidean_division_equations.

(** ** SetProductParallel *)
Definition sp_set (t : sp_task) : list Z := match t with SPTop s _ | SPChan s _ => s end.

Lemma sp_always_returns : forall t, always_returns sp_expand t (product (sp_set t)).
Proof.
  intros t. apply (fork_join sp_expand (fun _ => True) (fun t => product (sp_set t))
                     (fun t => match t with SPTop s _ => S (length s) | SPChan s _ => length s end)); [|exact I].
  clear t. intros t _. destruct t as [s limit|s limit]; cbn [sp_expand sp_set];
    (destruct (limit =? 0); [rewrite SetProductRecursiveFast_spec; reflexivity|]);
    (destruct (Nat.leb_spec (length s) 2); [rewrite SetProductRecursiveFast_spec; reflexivity|]);
    rewrite !go_slice_ret by lia; cbn [bind]; (split;
    [ repeat constructor; rewrite ?slice_length by lia; lia
    | cbn [map mul2 sp_set]; rewrite <- product_app, <- slice_app, slice_full by lia; reflexivity ]).
Qed.

(** ** parallel provers *)
Definition pm_set (t : pm_task) : list Z :=
  match t with PMParallel _ s _ | PMTable _ s _ | PMRandomizer _ _ s _ | PMRandomizerChan _ _ s _ | PMChan _ s _ => s end.
Definition pm_base (t : pm_task) : Z :=
  match t with PMParallel b _ _ | PMTable b _ _ | PMRandomizer b _ _ _ | PMRandomizerChan b _ _ _ | PMChan b _ _ => b end.

(** factor contributed by the randomizer, as the code is written *)
Definition pm_factor (t : pm_task) : Z :=
  match t with
  | PMRandomizer _ r _ limit | PMRandomizerChan _ r _ limit => if limit <=? 0 then r else 1
  | _ => 1
  end.

Definition pm_good (N : Z) (t : pm_task) : Prop :=
  nonneg (pm_set t) /\
  match t with
  | PMRandomizer _ r s _ | PMRandomizerChan _ r s _ => 0 <= r /\ (4 <= length s)%nat
  | _ => base_ok (pm_base t) N (pm_set t) /\ pm_set t <> []
  end.

Definition pm_sem (N : Z) (t : pm_task) : list Z := wit (pm_base t) N (pm_factor t) (pm_set t).
Definition pm_size (t : pm_task) : nat :=
  match t with PMChan _ s _ => length s | _ => S (length (pm_set t)) end.

Lemma slice_ne : forall A (s : list A) a b, (a < b <= length s)%nat -> slice s a b <> [].
Proof.
  intros A s a b Hab E. pose proof (slice_length _ s a b ltac:(lia)) as L. rewrite E in L. cbn in L. lia.
Qed.

Lemma ne_len : forall A (s : list A), s <> [] -> (1 <= length s)%nat.
Proof. intros A s H. destruct s; [congruence|cbn; lia]. Qed.

Lemma quarter_spec : forall N base set limit, 0 < N -> nonneg set -> (4 <= length set)%nat ->
  match quarter N base set limit with
  | Ret (Fork ts k) =>
      Forall (fun t' => pm_good N t' /\ (pm_size t' < S (length set))%nat) ts /\
      k (map (pm_sem N) ts) = wit base N 1 set
  | _ => False
  end.
Proof.
  intros N base set limit HN H Hl. unfold quarter. set (n := length set) in *.
  rewrite !go_slice_ret by lia. cbn [bind]. rewrite !SetProductRecursiveFast_spec. cbn [bind].
  assert (P : forall a b, 0 <= product (slice set a b)) by (intros; apply product_nonneg, slice_Forall; assumption).
  rewrite multi_exp_spec
    by (auto; repeat apply Forall_cons; try apply Forall_nil; apply Z.mul_nonneg_nonneg; apply P).
  cbn [map bind]. split.
  - repeat (apply Forall_cons || apply Forall_nil);
      (split; [split; [now apply slice_Forall|]; cbn [pm_set pm_base]; split;
                [right; apply Z.mod_pos_bound; lia|apply slice_ne; lia]
              |cbn [pm_size]; rewrite slice_length by lia; lia]).
  - unfold append_all, pm_sem. cbn [map concat pm_base pm_factor pm_set].
    rewrite !wit_base by (auto using slice_Forall; try lia; apply Z.mul_nonneg_nonneg; apply P).
    rewrite !Z.mul_1_r, app_nil_r.
    transitivity (wit base N 1 (slice set 0 n)); [|unfold n; now rewrite slice_full].
    rewrite (slice_app _ set 0 (n / 2) n), (slice_app _ set 0 (n / 4) (n / 2)),
      (slice_app _ set (n / 2) (n * 3 / 4) n) by lia.
    rewrite !wit_app, !product_app, <- !app_assoc.
    wit_eq.
Qed.

Lemma pm_always_returns : forall N t, 0 < N -> pm_good N t ->
  always_returns (pm_expand N) t (pm_sem N t).
Proof.
  intros N t HN Hg. apply (fork_join (pm_expand N) (pm_good N) (pm_sem N) pm_size); [|exact Hg].
  clear t Hg. intros t [H Hg].
  destruct t as [base s limit|base s limit|base r s limit|base r s limit|base s limit];
    cbn [pm_expand pm_set pm_base] in *.
  1,2: destruct Hg as [Hb Hne];
    (destruct (Z.leb_spec limit 0); [unfold leaf; rewrite ProveMembership_wit by assumption; reflexivity|]);
    (destruct (Nat.leb_spec (length s) 4);
      [unfold leaf; rewrite handleSmallSet_spec by (auto; apply ne_len in Hne; lia); reflexivity|]);
    pose proof (quarter_spec N base s (limit - 2) HN H ltac:(lia)) as Q;
    destruct (quarter N base s (limit - 2)) as [[?|ts k]| |]; try contradiction; exact Q.
  1,2: destruct Hg as [Hr Hl]; unfold pm_sem; cbn [pm_factor pm_base pm_set];
    (destruct (Z.leb_spec limit 0); [unfold leaf; rewrite Randomizer_spec by assumption; reflexivity|]);
    pose proof (quarter_spec N base s (limit - 2) HN H ltac:(lia)) as Q;
    destruct (quarter N base s (limit - 2)) as [[?|ts k]| |]; try contradiction; exact Q.
  destruct Hg as [Hb Hne].
  destruct (Z.leb_spec limit 0); [unfold leaf; rewrite ProveMembership_wit by assumption; reflexivity|].
  destruct (Nat.leb_spec (length s) 4);
    [unfold leaf; rewrite handleSmallSet_spec by (auto; apply ne_len in Hne; lia); reflexivity|].
  rewrite !go_slice_ret by lia. cbn [bind]. rewrite !SetProductRecursiveFast_spec. cbn [bind].
  assert (P : forall a b, 0 <= product (slice s a b)) by (intros; apply product_nonneg, slice_Forall; assumption).
  rewrite multi_exp_spec by (auto; repeat apply Forall_cons; try apply Forall_nil; apply P).
  cbn [map bind]. split.
  - repeat (apply Forall_cons || apply Forall_nil);
      (split; [split; [now apply slice_Forall|]; cbn [pm_set pm_base]; split;
                [right; apply Z.mod_pos_bound; lia|apply slice_ne; lia]
              |cbn [pm_size]; rewrite slice_length by lia; lia]).
  - unfold append_all, pm_sem. cbn [map concat pm_base pm_factor pm_set].
    rewrite !wit_base by (auto using slice_Forall; try lia; apply P).
    rewrite !Z.mul_1_r, app_nil_r.
    transitivity (wit base N 1 (slice s 0 (length s))); [|now rewrite slice_full].
    rewrite (slice_app _ s 0 (length s / 2) (length s)) by lia.
    rewrite !wit_app. wit_eq.
Qed.

(** empty input crashes every variant *)
Lemma pm_empty_crash : forall N base limit, may_crash (pm_expand N) (PMParallel base [] limit).
Proof.
  intros N base limit. exists [[]]. cbn [grun gstep pm_expand].
  destruct (limit <=? 0); reflexivity.
Qed.

(** the randomised parallel version crashes on sets shorter than 4 *)
Lemma pm_randomizer_small_crash : forall N base r s limit, 0 < N -> 0 <= r -> nonneg s ->
  (length s < 4)%nat -> may_crash (pm_expand N) (PMRandomizer base r s limit).
Proof.
  intros N base r s limit HN Hr H Hl.
  destruct (Z.leb_spec limit 0).
  - exists [[]]. cbn [grun gstep pm_expand]. destruct (Z.leb_spec limit 0); [|lia].
    unfold leaf. rewrite Randomizer_small by assumption. reflexivity.
  - exists [[]; [0%nat]]. cbn [grun gstep pm_expand]. destruct (Z.leb_spec limit 0); [lia|].
    unfold quarter. set (n := length s) in *.
    rewrite !go_slice_ret by lia. cbn [bind]. rewrite !SetProductRecursiveFast_spec. cbn [bind].
    assert (P : forall a b, 0 <= product (slice s a b)) by (intros; apply product_nonneg, slice_Forall; assumption).
    rewrite multi_exp_spec
      by (auto; repeat apply Forall_cons; try apply Forall_nil; apply Z.mul_nonneg_nonneg; apply P).
    cbn [map bind nth_error gstep pm_expand].
    replace (n / 4)%nat with 0%nat by lia. unfold slice at 1. cbn [skipn firstn Nat.sub].
    destruct (limit - 2 <=? 0); reflexivity.
Qed.
