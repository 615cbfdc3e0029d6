(** Theorems for property C121: the recursive product and membership functions leave their arguments alone and return
    numbers of their own. *)
From Coq Require Import ZArith Bool Lia List.
From Verif Require Import GoBig Spec AccModel AccFacts AccProofs IterModel IterProofs OwnModel.
Import ListNotations.
Open Scope Z_scope.

(** ** specification *)
(** cell a holds v *)
Definition holds (m : mem) (a : addr) (v : Z) : Prop := nth_error m a = Some v.
(** m' is m with more cells *)
Definition extends (m m' : mem) : Prop := forall a v, holds m a v -> holds m' a v.
(** the numbers at ps are new since m, and no two of them are the same: writing to one of them changes neither the cells of m
    nor the others *)
Definition private (m m' : mem) (ps : list addr) : Prop :=
  forall i p v, nth_error ps i = Some p ->
    (p < length m')%nat /\ extends m (store m' p v) /\ forall j q, nth_error ps j = Some q -> i <> j -> nth_error (store m' p v) q = nth_error m' q.

(** ** proof machinery: calls of the memory functions next to those of AccModel *)
Definition keeps (n : nat) (m m' : mem) : Prop := (length m <= length m')%nat /\ forall a, (a < n)%nat -> nth_error m' a = nth_error m a.
Definition follows {A B} (n : nat) (m : mem) (R : mem -> A -> B -> Prop) (r : outcome (mem * A)) (v : outcome B) : Prop :=
  match v with
  | Ret b => exists m' a, r = Ret (m', a) /\ keeps n m m' /\ R m' a b
  | Panic => r = Panic
  | OutOfFuel => r = OutOfFuel
  end.

Lemma keeps_refl : forall n m, keeps n m m.
Proof. intros n m. split; [lia|reflexivity]. Qed.
Lemma keeps_trans : forall n m1 m2 m3, (n <= length m1)%nat -> keeps (length m1) m1 m2 -> keeps n m2 m3 -> keeps n m1 m3.
Proof. intros n m1 m2 m3 Hn [L1 K1] [L2 K2]. split; [lia|]. intros a Ha. rewrite K2, K1 by lia. reflexivity. Qed.
Lemma keeps_le : forall n k m m', (n <= k)%nat -> keeps k m m' -> keeps n m m'.
Proof. intros n k m m' H [L K]. split; [exact L|]. intros a Ha. apply K. lia. Qed.
Lemma holds_lt : forall m a v, holds m a v -> (a < length m)%nat.
Proof. intros m a v H. apply nth_error_Some. unfold holds in H. congruence. Qed.
Lemma holds_keeps : forall m m' a v, keeps (length m) m m' -> holds m a v -> holds m' a v.
Proof. intros m m' a v [_ K] H. unfold holds. rewrite K; [exact H|]. now apply holds_lt in H. Qed.
Lemma all_keeps : forall m m' l vs, keeps (length m) m m' -> Forall2 (holds m) l vs -> Forall2 (holds m') l vs.
Proof. intros m m' l vs K H. induction H; constructor; [eapply holds_keeps; eassumption|assumption]. Qed.
Lemma load_holds : forall m a v, holds m a v -> load m a = Ret v.
Proof. intros m a v H. unfold load. rewrite H. reflexivity. Qed.
Lemma keeps_alloc : forall m v, keeps (length m) m (m ++ [v]).
Proof. intros m v. split; [rewrite app_length; cbn; lia|]. intros a Ha. now apply nth_error_app1. Qed.
Lemma holds_alloc : forall m v, holds (m ++ [v]) (length m) v.
Proof. intros m v. unfold holds. rewrite nth_error_app2 by lia. rewrite Nat.sub_diag. reflexivity. Qed.

Lemma follows_bind : forall {A B C D} n m (R : mem -> A -> B -> Prop) (R2 : mem -> C -> D -> Prop) r v k kv, (n <= length m)%nat ->
  follows (length m) m R r v ->
  (forall m' a b, keeps (length m) m m' -> R m' a b -> follows n m' R2 (k (m', a)) (kv b)) ->
  follows n m R2 (bind r k) (bind v kv).
Proof.
  intros A B C D n m R R2 r v k kv Hn H K. destruct v as [b| |]; cbn [follows bind] in H |- *; [|now rewrite H|now rewrite H].
  destruct H as (m' & a & -> & HK & HR). cbn [bind]. specialize (K m' a b HK HR). unfold follows in *.
  destruct (kv b) as [d| |]; [|exact K|exact K]. destruct K as (m2 & c & E & HK2 & HR2). exists m2, c. repeat split; try assumption; eapply keeps_trans; eassumption.
Qed.
Lemma follows_step : forall {A B} n m m' (R : mem -> A -> B -> Prop) r v, (n <= length m)%nat -> keeps n m m' -> follows n m' R r v -> follows n m R r v.
Proof.
  intros A B n m m' R r v Hn [L K] H. unfold follows in *. destruct v as [b| |]; [|exact H|exact H].
  destruct H as (m2 & c & E & [L2 K2] & HR). exists m2, c. split; [exact E|]. split; [|exact HR]. split; [lia|]. intros a Ha. rewrite K2, K by lia. reflexivity.
Qed.
Lemma slices : forall m l vs a b, Forall2 (holds m) l vs ->
  (exists s t, go_slice l a b = Ret s /\ go_slice vs a b = Ret t /\ Forall2 (holds m) s t) \/ (go_slice l a b = Panic /\ go_slice vs a b = Panic).
Proof.
  intros m l vs a b H. unfold go_slice. rewrite <- (@Forall2_length _ _ _ _ _ H). destruct (_ && _); [left|right; split; reflexivity].
  eexists _, _. split; [reflexivity|split; [reflexivity|]]. generalize (b - a)%nat. clear b. revert a. 
  assert (S : forall l vs k, Forall2 (holds m) l vs -> Forall2 (holds m) (skipn k l) (skipn k vs)).
  { clear. intros l vs k H. revert k. induction H; intros [|k]; cbn; constructor || auto; assumption. }
  assert (F : forall l vs k, Forall2 (holds m) l vs -> Forall2 (holds m) (firstn k l) (firstn k vs)).
  { clear. intros l vs k H. revert k. induction H; intros [|k]; cbn; constructor || auto; auto. }
  intros a k. apply F, S, H.
Qed.

(** *** multiplication *)
Definition one (m0 : mem) (m : mem) (a : addr) (v : Z) : Prop := holds m a v /\ (length m0 <= a)%nat.
Lemma fft_mul_ok : forall m a b x y, holds m a x -> holds m b y -> follows (length m) m (one m) (fft_mul m a b) (Ret (x * y)).
Proof.
  intros m a b x y Ha Hb. unfold fft_mul. rewrite (load_holds _ _ _ Ha), (load_holds _ _ _ Hb). cbn [bind]. unfold alloc.
  exists (m ++ [x * y]), (length m). split; [reflexivity|]. split; [apply keeps_alloc|]. split; [apply holds_alloc|lia].
Qed.

(** loops that write only to ret *)
Lemma keeps_store : forall n m a v, (n <= a < length m)%nat -> keeps n m (store m a v).
Proof. intros n m a v H. split; [rewrite store_length; lia|]. intros i Hi. rewrite store_nth by lia. destruct (Nat.eqb_spec i a); [lia|reflexivity]. Qed.
Lemma holds_store : forall m a v, (a < length m)%nat -> holds (store m a v) a v.
Proof. intros m a v H. unfold holds. rewrite store_nth, Nat.eqb_refl by lia. reflexivity. Qed.

Lemma into_other : forall m ret v l vs, (ret < length m)%nat -> Forall (fun a => a <> ret) l -> Forall2 (holds m) l vs -> Forall2 (holds (store m ret v)) l vs.
Proof.
  intros m ret v l vs Hr Hl H. induction H as [|a x l vs Ha H IH]; [constructor|]. apply Forall_cons_iff in Hl. destruct Hl as [N Hl].
  constructor; [|now apply IH]. unfold holds. rewrite store_nth by exact Hr. destruct (Nat.eqb_spec a ret); [contradiction|exact Ha].
Qed.
Lemma mul_into_ok : forall l vs m ret x n, holds m ret x -> (n <= ret)%nat -> Forall (fun a => a <> ret) l -> Forall2 (holds m) l vs ->
  exists m', mul_into m ret l = Ret m' /\ keeps n m m' /\ holds m' ret (fold_left Z.mul vs x).
Proof.
  induction l as [|a l IH]; intros vs m ret x n Hr Hn Hl H; inversion H as [|? v ? vs' Ha H' E1 E2]; subst; cbn [mul_into fold_left].
  - exists m. split; [reflexivity|]. split; [apply keeps_refl|exact Hr].
  - rewrite (load_holds _ _ _ Hr), (load_holds _ _ _ Ha). cbn [bind]. pose proof (holds_lt _ _ _ Hr) as L. apply Forall_cons_iff in Hl. destruct Hl as [N Hl].
    destruct (IH vs' (store m ret (x * v)) ret (x * v) n) as (m' & E & [K1 K2] & Hh); [now apply holds_store|exact Hn|exact Hl|now apply into_other|].
    exists m'. split; [exact E|]. split; [|exact Hh]. rewrite store_length in K1 by exact L. split; [exact K1|].
    intros i Hi. rewrite K2, store_nth by assumption. destruct (Nat.eqb_spec i ret); [lia|reflexivity].
Qed.
Lemma fft_into_ok : forall l vs m ret x n, holds m ret x -> (n <= ret)%nat -> Forall (fun a => a <> ret) l -> Forall2 (holds m) l vs ->
  exists m', fft_into m ret l = Ret m' /\ keeps n m m' /\ holds m' ret (fold_left Z.mul vs x).
Proof.
  induction l as [|a l IH]; intros vs m ret x n Hr Hn Hl H; inversion H as [|? v ? vs' Ha H' E1 E2]; subst; cbn [fft_into fold_left].
  - exists m. split; [reflexivity|]. split; [apply keeps_refl|exact Hr].
  - destruct (fft_mul_ok m ret a x v Hr Ha) as (m1 & t & E1 & K1 & Ht & Lt). rewrite E1. cbn [bind]. rewrite (load_holds _ _ _ Ht). cbn [bind].
    apply Forall_cons_iff in Hl. destruct Hl as [N Hl]. pose proof (holds_lt _ _ _ Hr) as L. pose proof (proj1 K1) as L1.
    destruct (IH vs' (store m1 ret (x * v)) ret (x * v) n) as (m' & E & [K2 K3] & Hh);
      [apply holds_store; lia|exact Hn|exact Hl|apply into_other; [lia|exact Hl|eapply all_keeps; eassumption]|].
    exists m'. split; [exact E|]. split; [|exact Hh]. rewrite store_length in K2 by lia. split; [lia|].
    intros i Hi. rewrite K3, store_nth by (try exact Hi; lia). destruct (Nat.eqb_spec i ret); [lia|]. apply (proj2 K1). lia.
Qed.
Lemma fresh_ret : forall m l vs, Forall2 (holds m) l vs -> Forall (fun a => a <> length m) l.
Proof. intros m l vs H. induction H as [|a v l vs Ha H IH]; constructor; [apply holds_lt in Ha; lia|exact IH]. Qed.

Lemma start_product : forall m l vs (into : mem -> addr -> list addr -> outcome mem),
  (forall l vs m ret x n, holds m ret x -> (n <= ret)%nat -> Forall (fun a => a <> ret) l -> Forall2 (holds m) l vs ->
    exists m', into m ret l = Ret m' /\ keeps n m m' /\ holds m' ret (fold_left Z.mul vs x)) ->
  Forall2 (holds m) l vs ->
  follows (length m) m (one m) (do m' <- into (store (m ++ [0]) (length m) 1) (length m) l; Ret (m', length m)) (Ret (fold_left Z.mul vs 1)).
Proof.
  intros m l vs into HI H. pose proof (keeps_alloc m 0) as K0. assert (L : (length m < length (m ++ [0%Z]))%nat) by (rewrite app_length; cbn; lia).
  destruct (HI l vs (store (m ++ [0]) (length m) 1) (length m) 1 (length m)) as (m' & E & [K1 K2] & Hh);
    [now apply holds_store|lia|eapply fresh_ret; exact H|apply into_other; [exact L|eapply fresh_ret; exact H|eapply all_keeps; eassumption]|].
  rewrite E. cbn [bind]. exists m', (length m). split; [reflexivity|]. rewrite store_length in K1 by exact L. split; [|split; [exact Hh|lia]].
  split; [lia|]. intros i Hi. rewrite K2, store_nth by (try exact Hi; exact L). destruct (Nat.eqb_spec i (length m)); [lia|]. now apply (proj2 K0).
Qed.
Lemma SetProduct2_ok : forall m l vs, Forall2 (holds m) l vs -> follows (length m) m (one m) (SetProduct2_mem m l) (Ret (SetProduct2 vs)).
Proof. intros m l vs H. unfold SetProduct2_mem, SetProduct2, alloc. apply start_product; [exact mul_into_ok|exact H]. Qed.

Ltac push K := repeat match goal with
  | H : holds ?m ?a ?v |- _ => match type of K with keeps _ m _ => apply (holds_keeps _ _ _ _ K) in H end
  | H : Forall2 (holds ?m) ?l ?vs |- _ => match type of K with keeps _ m _ => apply (all_keeps _ _ _ _ K) in H end
  end.

Ltac copy m1 v1 Hq L1 :=
  let K := fresh "K" in pose proof (keeps_alloc m1 v1) as K; pose proof (holds_alloc m1 v1) as Hq;
  assert (L1 : length (m1 ++ [v1]) = Datatypes.S (length m1)) by (rewrite app_length; cbn; lia);
  match goal with |- follows ?n _ _ _ _ => apply (follows_step n m1 (m1 ++ [v1])); [lia|eapply keeps_le; [|exact K]; lia|] end;
  push K; clear K.

(** the last lines of the two recursive functions: both parts copied, their product written to ret *)
Lemma product_ok : forall f m l vs, Forall2 (holds m) l vs -> follows (length m) m (one m) (product_mem f m l) (set_product_recursive f vs).
Proof.
  induction f as [|f IH]; intros m l vs H; cbn [product_mem set_product_recursive]; rewrite <- (@Forall2_length _ _ _ _ _ H); unfold alloc;
    destruct (length l <=? 2)%nat; try (apply start_product; [exact mul_into_ok|exact H]).
  - reflexivity.
  - destruct (slices m l vs 0 (length l / 2) H) as [(s1 & t1 & -> & -> & H1)|[-> ->]]; [|reflexivity]. cbn [bind].
    destruct (slices m l vs (length l / 2) (length l) H) as [(s2 & t2 & -> & -> & H2)|[-> ->]]; [|reflexivity]. cbn [bind]. clear H.
    pose proof (keeps_alloc m 0) as K. assert (L : (length m < length (m ++ [0%Z]))%nat) by (rewrite app_length; cbn; lia).
    apply (follows_step (length m) m (m ++ [0]) _ _ _ ltac:(lia) K). push K. set (ret := length m) in *. clear K. set (m0 := m ++ [0]) in *. clearbody m0.
    eapply follows_bind; [lia|apply IH; exact H1|]. cbn beta iota. intros m1 p1 v1 K1 (Hp & Lp). push K1. pose proof (proj1 K1) as B1.
    rewrite (load_holds _ _ _ Hp). cbn [bind]. copy m1 v1 Hq1 L1.
    eapply follows_bind; [lia|apply IH; exact H2|]. cbn beta iota. intros m2 p2 v2 K2 (Hp2 & Lp2). push K2. pose proof (proj1 K2) as B2.
    rewrite (load_holds _ _ _ Hp2). cbn [bind]. copy m2 v2 Hq2 L2.
    match goal with |- follows _ ?M _ _ _ => set (m3 := M) in * end.
    rewrite (load_holds _ _ _ Hq1), (load_holds _ _ _ Hq2). cbn [bind].
    exists (store m3 ret (v1 * v2)), ret. split; [reflexivity|]. split; [apply keeps_store; lia|]. split; [apply holds_store; lia|lia].
Qed.
Lemma product_fast_ok : forall f m l vs, Forall2 (holds m) l vs -> follows (length m) m (one m) (product_fast_mem f m l) (set_product_recursive_fast f vs).
Proof.
  induction f as [|f IH]; intros m l vs H; cbn [product_fast_mem set_product_recursive_fast]; rewrite <- (@Forall2_length _ _ _ _ _ H); unfold alloc;
    destruct (length l <=? 2)%nat; try (apply start_product; [exact fft_into_ok|exact H]).
  - reflexivity.
  - destruct (slices m l vs 0 (length l / 2) H) as [(s1 & t1 & -> & -> & H1)|[-> ->]]; [|reflexivity]. cbn [bind].
    destruct (slices m l vs (length l / 2) (length l) H) as [(s2 & t2 & -> & -> & H2)|[-> ->]]; [|reflexivity]. cbn [bind]. clear H.
    pose proof (keeps_alloc m 0) as K. assert (L : (length m < length (m ++ [0%Z]))%nat) by (rewrite app_length; cbn; lia).
    apply (follows_step (length m) m (m ++ [0]) _ _ _ ltac:(lia) K). push K. set (ret := length m) in *. clear K. set (m0 := m ++ [0]) in *. clearbody m0.
    eapply follows_bind; [lia|apply IH; exact H1|]. cbn beta iota. intros m1 p1 v1 K1 (Hp & Lp). push K1. pose proof (proj1 K1) as B1.
    rewrite (load_holds _ _ _ Hp). cbn [bind]. copy m1 v1 Hq1 L1.
    eapply follows_bind; [lia|apply IH; exact H2|]. cbn beta iota. intros m2 p2 v2 K2 (Hp2 & Lp2). push K2. pose proof (proj1 K2) as B2.
    rewrite (load_holds _ _ _ Hp2). cbn [bind]. copy m2 v2 Hq2 L2.
    match goal with |- follows _ ?M _ _ _ => set (m3 := M) in * end.
    destruct (fft_mul_ok m3 _ _ v1 v2 Hq1 Hq2) as (m4 & t & E & K4 & Ht & Lt). rewrite E. cbn [bind]. rewrite (load_holds _ _ _ Ht). cbn [bind].
    pose proof (proj1 K4) as B4. apply (follows_step ret m3 m4); [lia|eapply keeps_le; [|exact K4]; lia|].
    exists (store m4 ret (v1 * v2)), ret. split; [reflexivity|]. split; [apply keeps_store; lia|]. split; [apply holds_store; lia|lia].
Qed.

(** *** powers *)
Definition many (m0 : mem) (m : mem) (ps : list addr) (ws : list Z) : Prop :=
  Forall2 (holds m) ps ws /\ NoDup ps /\ Forall (fun a => (length m0 <= a)%nat) ps.
Lemma alloc_all_eq : forall ws m, alloc_all m ws = (m ++ ws, seq (length m) (length ws)).
Proof.
  induction ws as [|w ws IH]; intros m; cbn [alloc_all]; [rewrite app_nil_r; reflexivity|]. unfold alloc. rewrite IH, <- app_assoc, app_length.
  cbn [app length seq]. rewrite Nat.add_1_r. reflexivity.
Qed.
Lemma keeps_app : forall m t, keeps (length m) m (m ++ t).
Proof. intros m t. split; [rewrite app_length; lia|]. intros a Ha. now apply nth_error_app1. Qed.
Lemma holds_new : forall ws m k, (k + length ws <= length m)%nat -> (forall i, (i < length ws)%nat -> nth_error m (k + i) = nth_error ws i) -> Forall2 (holds m) (seq k (length ws)) ws.
Proof.
  induction ws as [|w ws IH]; intros m k Hl H; cbn [length seq]; constructor.
  - specialize (H 0%nat ltac:(cbn; lia)). rewrite Nat.add_0_r in H. exact H.
  - apply IH; [cbn in Hl; lia|]. intros i Hi. specialize (H (Datatypes.S i) ltac:(cbn; lia)). rewrite Nat.add_succ_r in H. exact H.
Qed.
Lemma multi_exp_ok : forall m base N es b n vs, holds m base b -> holds m N n -> Forall2 (holds m) es vs ->
  follows (length m) m (many m) (multi_exp_mem m base N es) (multi_exp b n vs).
Proof.
  intros m base N es b n vs Hb Hn He. unfold multi_exp_mem. rewrite (load_holds _ _ _ Hb), (load_holds _ _ _ Hn), (load_all_spec _ _ _ He). cbn [bind].
  destruct (multi_exp b n vs) as [ws| |]; [|reflexivity|reflexivity]. cbn [bind]. rewrite alloc_all_eq.
  eexists _, _. split; [reflexivity|]. split; [apply keeps_app|]. split; [|split; [apply seq_NoDup|]].
  - apply holds_new; [rewrite app_length; lia|]. intros i Hi. rewrite nth_error_app2 by lia. f_equal. lia.
  - apply Forall_forall. intros a Ha. apply in_seq in Ha. lia.
Qed.
Lemma AccumulateNew_ok : forall m g p N x e n, holds m g x -> holds m p e -> holds m N n ->
  follows (length m) m (one m) (AccumulateNew_mem m g p N) (Ret (AccumulateNew x e n)).
Proof.
  intros m g p N x e n Hg Hp Hn. unfold AccumulateNew_mem. rewrite (load_holds _ _ _ Hg). cbn [bind]. unfold alloc.
  copy m x Hq L. rewrite (load_holds _ _ _ Hg), (load_holds _ _ _ Hp), (load_holds _ _ _ Hn), (load_holds _ _ _ Hq). cbn [bind].
  eexists _, _. split; [reflexivity|]. split; [apply keeps_store; lia|]. split; [apply holds_store; lia|lia].
Qed.

Ltac mul a b x y :=
  match goal with Ha : holds ?m a x, Hb : holds ?m b y |- follows ?n ?m _ _ _ =>
    let m' := fresh "m" in let t := fresh "t" in let E := fresh "E" in let K := fresh "K" in let Ht := fresh "Ht" in let Lt := fresh "Lt" in let B := fresh "B" in
    destruct (fft_mul_ok m a b x y Ha Hb) as (m' & t & E & K & Ht & Lt); rewrite E; clear E; cbn [bind];
    pose proof (proj1 K) as B; apply (follows_step n m m'); [lia|eapply keeps_le; [|exact K]; lia|]; push K; clear K
  end.
Lemma many_from : forall m0 m m' ps ws, (length m0 <= length m)%nat -> many m m' ps ws -> many m0 m' ps ws.
Proof. intros m0 m m' ps ws L (H & N & F). split; [exact H|]. split; [exact N|]. eapply Forall_impl; [|exact F]. cbn. intros a Ha. lia. Qed.
Lemma follows_many : forall n m0 m r v, (length m0 <= length m)%nat -> (n <= length m)%nat -> follows (length m) m (many m) r v -> follows n m (many m0) r v.
Proof.
  intros n m0 m r v L Hn H. unfold follows in *. destruct v as [ws| |]; [|exact H|exact H]. destruct H as (m' & ps & E & K & M).
  exists m', ps. split; [exact E|]. split; [eapply keeps_le; eassumption|eapply many_from; eassumption].
Qed.

Lemma NoDup_two : forall (A : Type) (l k : list A), NoDup l -> NoDup k -> (forall a, In a l -> ~ In a k) -> NoDup (l ++ k).
Proof.
  intros A l k Hl Hk H. induction Hl as [|a l Ha Hl IH]; [exact Hk|]. cbn. constructor.
  - intros Hi. apply in_app_or in Hi. destruct Hi as [Hi|Hi]; [contradiction|]. now apply (H a); [left|].
  - apply IH. intros b Hb. apply H. now right.
Qed.
Lemma many_app : forall m0 m1 m2 ps ws qs us, (length m0 <= length m1)%nat -> many m0 m1 ps ws -> keeps (length m1) m1 m2 -> many m1 m2 qs us ->
  many m0 m2 (ps ++ qs) (ws ++ us).
Proof.
  intros m0 m1 m2 ps ws qs us L (H1 & N1 & F1) K (H2 & N2 & F2). split; [|split].
  - apply Forall2_app; [eapply all_keeps; eassumption|exact H2].
  - apply NoDup_two; [exact N1|exact N2|]. intros a Ha Hq. rewrite Forall_forall in F2. specialize (F2 a Hq).
    assert (B : (a < length m1)%nat); [|lia]. clear - H1 Ha. induction H1 as [|x v ps ws Hx H IH]; [destruct Ha|destruct Ha as [<-|Ha]; [now apply holds_lt in Hx|now apply IH]].
  - apply Forall_app. split; [exact F1|]. eapply Forall_impl; [|exact F2]. cbn. intros a Ha. lia.
Qed.
Lemma many_one : forall m0 m a v, one m0 m a v -> many m0 m [a] [v].
Proof. intros m0 m a v [H L]. split; [constructor; [exact H|constructor]|]. split; [constructor; [intros []|constructor]|constructor; [exact L|constructor]]. Qed.

Lemma small_ok : forall m base N l b n vs, holds m base b -> holds m N n -> Forall2 (holds m) l vs ->
  follows (length m) m (many m) (handleSmallSet_mem m base N l) (handleSmallSet b n vs).
Proof.
  intros m base N l b n vs Hb Hn H.
  destruct H as [|a0 v0 l vs H0 H]; [reflexivity|]. destruct H as [|a1 v1 l vs H1 H].
  { cbn [handleSmallSet_mem handleSmallSet]. unfold alloc. copy m 0 Hq L. rewrite (load_holds _ _ _ Hb). cbn [bind].
    eexists _, _. split; [reflexivity|]. split; [apply keeps_store; lia|]. split; [constructor; [apply holds_store; lia|constructor]|].
    split; [constructor; [intros []|constructor]|constructor; [lia|constructor]]. }
  destruct H as [|a2 v2 l vs H2 H].
  { cbn [handleSmallSet_mem handleSmallSet]. apply multi_exp_ok; [exact Hb|exact Hn|repeat constructor; assumption]. }
  destruct H as [|a3 v3 l vs H3 H].
  { cbn [handleSmallSet_mem handleSmallSet]. mul a1 a2 v1 v2. mul a0 a2 v0 v2. mul a0 a1 v0 v1.
    eapply follows_bind; [lia|apply multi_exp_ok; [exact Hb|exact Hn|repeat constructor; eassumption]|]. cbn beta iota.
    intros m4 ps ws K (M1 & M2 & M3). pose proof (proj1 K) as B4. push K.
    destruct (AccumulateNew_ok m4 base t1 N b (v0 * v1) n) as (m5 & p & E & K5 & Hp & Lp); [assumption..|]. rewrite E. cbn [bind].
    exists m5, (ps ++ [p]). split; [reflexivity|]. split; [eapply keeps_le; [|exact K5]; lia|].
    apply (many_from m m2); [lia|]. eapply (many_app m2 m4 m5); [lia|exact (conj M1 (conj M2 M3))|exact K5|]. apply many_one. split; [exact Hp|lia]. }
  destruct H as [|a4 v4 l vs H4 H]; [|reflexivity].
  cbn [handleSmallSet_mem handleSmallSet]. mul a0 a1 v0 v1. mul a2 a3 v2 v3. mul t0 a1 (v2 * v3) v1. mul t0 a0 (v2 * v3) v0. mul t a3 (v0 * v1) v3. mul t a2 (v0 * v1) v2.
  apply follows_many; [lia|lia|]. apply multi_exp_ok; [assumption|assumption|repeat constructor; assumption].
Qed.

Lemma membership_ok : forall f m base N l b n vs, holds m base b -> holds m N n -> Forall2 (holds m) l vs ->
  follows (length m) m (many m) (membership_mem f m base N l) (prove_membership f b n vs).
Proof.
  induction f as [|f IH]; intros m base N l b n vs Hb Hn H; cbn [membership_mem prove_membership]; rewrite <- (@Forall2_length _ _ _ _ _ H);
    destruct (length l <=? 4)%nat; try (now apply small_ok); [reflexivity|].
  set (k := length l) in *. clearbody k.
  destruct (slices m l vs (k / 2) k H) as [(sR & tR & -> & -> & HR)|[-> ->]]; [|reflexivity]. cbn [bind].
  destruct (slices m l vs 0 (k / 2) H) as [(sL & tL & -> & -> & HL)|[-> ->]]; [|reflexivity]. cbn [bind].
  destruct (slices m l vs (k / 4) (k / 2) H) as [(sLR & tLR & -> & -> & HLR)|[-> ->]]; [|reflexivity]. cbn [bind].
  destruct (slices m l vs 0 (k / 4) H) as [(sLL & tLL & -> & -> & HLL)|[-> ->]]; [|reflexivity]. cbn [bind].
  destruct (slices m l vs (k * 3 / 4) k H) as [(sRR & tRR & -> & -> & HRR)|[-> ->]]; [|reflexivity]. cbn [bind].
  destruct (slices m l vs (k / 2) (k * 3 / 4) H) as [(sRL & tRL & -> & -> & HRL)|[-> ->]]; [|reflexivity]. cbn [bind]. clear H.
  unfold SetProductRecursiveFast_mem, SetProductRecursiveFast.
  rewrite (@Forall2_length _ _ _ _ _ HR), (@Forall2_length _ _ _ _ _ HL), (@Forall2_length _ _ _ _ _ HLR), (@Forall2_length _ _ _ _ _ HLL), (@Forall2_length _ _ _ _ _ HRR), (@Forall2_length _ _ _ _ _ HRL).
  eapply follows_bind; [lia|apply product_fast_ok; exact HR|]. cbn beta iota. intros m1 p1 v1 K1 (Hp1 & _). pose proof (proj1 K1) as B1. push K1. clear K1.
  eapply follows_bind; [lia|apply product_fast_ok; exact HL|]. cbn beta iota. intros m2 p2 v2 K2 (Hp2 & _). pose proof (proj1 K2) as B2. push K2. clear K2.
  eapply follows_bind; [lia|apply product_fast_ok; exact HLR|]. cbn beta iota. intros m3 p3 v3 K3 (Hp3 & _). pose proof (proj1 K3) as B3. push K3. clear K3.
  eapply follows_bind; [lia|apply product_fast_ok; exact HLL|]. cbn beta iota. intros m4 p4 v4 K4 (Hp4 & _). pose proof (proj1 K4) as B4. push K4. clear K4.
  eapply follows_bind; [lia|apply product_fast_ok; exact HRR|]. cbn beta iota. intros m5 p5 v5 K5 (Hp5 & _). pose proof (proj1 K5) as B5. push K5. clear K5.
  eapply follows_bind; [lia|apply product_fast_ok; exact HRL|]. cbn beta iota. intros m6 p6 v6 K6 (Hp6 & _). pose proof (proj1 K6) as B6. push K6. clear K6.
  mul p1 p3 v1 v3. mul p1 p4 v1 v4. mul p2 p5 v2 v5. mul p2 p6 v2 v6.
  eapply follows_bind; [lia|apply multi_exp_ok; [exact Hb|exact Hn|repeat constructor; eassumption]|]. cbn beta iota.
  intros m11 bases bs K (M & _ & _). pose proof (proj1 K) as Bx. push K. clear K.
  destruct M as [|b0 w0 bases bs H0 M]; [reflexivity|]. destruct M as [|b1 w1 bases bs H1 M]; [reflexivity|]. destruct M as [|b2 w2 bases bs H2 M]; [reflexivity|].
  destruct M as [|b3 w3 bases bs H3 M]; [reflexivity|]. destruct M as [|b4 w4 bases bs H4 M]; [|reflexivity].
  eapply follows_bind; [lia|apply (IH m11 b0 N sLL w0 n tLL); assumption|]. cbn beta iota. intros m12 q0 u0 K12 Q0. pose proof (proj1 K12) as B12. push K12.
  eapply follows_bind; [lia|apply (IH m12 b1 N sLR w1 n tLR); assumption|]. cbn beta iota. intros m13 q1 u1 K13 Q1. pose proof (proj1 K13) as B13. push K13.
  eapply follows_bind; [lia|apply (IH m13 b2 N sRL w2 n tRL); assumption|]. cbn beta iota. intros m14 q2 u2 K14 Q2. pose proof (proj1 K14) as B14. push K14.
  eapply follows_bind; [lia|apply (IH m14 b3 N sRR w3 n tRR); assumption|]. cbn beta iota. intros m15 q3 u3 K15 Q3. pose proof (proj1 K15) as B15. push K15.
  exists m15, (q0 ++ q1 ++ q2 ++ q3). split; [reflexivity|]. split; [apply keeps_refl|].
  apply (many_from m m11); [lia|].
  assert (Q23 : many m13 m15 (q2 ++ q3) (u2 ++ u3)) by (apply (many_app _ m14); assumption).
  assert (K35 : keeps (length m13) m13 m15) by (eapply keeps_trans; [reflexivity|exact K14|eapply keeps_le; [|exact K15]; lia]).
  assert (Q123 : many m12 m15 (q1 ++ q2 ++ q3) (u1 ++ u2 ++ u3)) by (apply (many_app _ m13); assumption).
  assert (K25 : keeps (length m12) m12 m15) by (eapply keeps_trans; [reflexivity|exact K13|eapply keeps_le; [|exact K35]; lia]).
  apply (many_app _ m12); assumption.
Qed.

Lemma keeps_extends : forall m m', keeps (length m) m m' -> extends m m'.
Proof. intros m m' K a v H. eapply holds_keeps; eassumption. Qed.
Lemma many_private : forall m m' ps ws, keeps (length m) m m' -> many m m' ps ws -> private m m' ps.
Proof.
  intros m m' ps ws K (H & N & F) i p v Hi. rewrite Forall_forall in F. pose proof (F p (nth_error_In _ _ Hi)) as Lp.
  assert (Bp : (p < length m')%nat).
  { clear - H Hi. revert i Hi. induction H as [|a x ps ws Ha H IH]; intros [|i] Hi; cbn in Hi; try discriminate; [injection Hi as <-; now apply holds_lt in Ha|eapply IH; exact Hi]. }
  split; [exact Bp|]. split.
  - intros a x Ha. pose proof (holds_lt _ _ _ Ha) as La. apply (keeps_extends _ _ K) in Ha. unfold holds. rewrite store_nth by exact Bp.
    destruct (Nat.eqb_spec a p); [lia|exact Ha].
  - intros j q Hj Hij. rewrite store_nth by exact Bp. destruct (Nat.eqb_spec q p) as [->|]; [|reflexivity]. exfalso. apply Hij.
    apply (proj1 (NoDup_nth_error ps) N); [apply nth_error_Some; congruence|congruence].
Qed.

(** ** C121. The cells of the arguments may be the same in any way; m is the whole memory of the caller. *)
Theorem C121_products : forall m set vs, Forall2 (holds m) set vs ->
  Forall (fun f => exists m' r, f m set = Ret (m', r) /\ extends m m' /\ private m m' [r] /\ holds m' r (product vs))
    [SetProduct2_mem; SetProductRecursive_mem; SetProductRecursiveFast_mem].
Proof.
  intros m set vs H.
  assert (G : forall f, follows (length m) m (one m) (f m set) (Ret (product vs)) ->
    exists m' r, f m set = Ret (m', r) /\ extends m m' /\ private m m' [r] /\ holds m' r (product vs)).
  { intros f (m' & r & E & K & O). exists m', r. split; [exact E|]. split; [now apply keeps_extends|]. split; [|exact (proj1 O)].
    eapply many_private; [exact K|]. apply many_one. exact O. }
  repeat constructor; apply G.
  - rewrite <- SetProduct2_spec. now apply SetProduct2_ok.
  - rewrite <- (SetProductRecursive_spec vs). unfold SetProductRecursive_mem, SetProductRecursive. rewrite (@Forall2_length _ _ _ _ _ H). now apply product_ok.
  - rewrite <- (SetProductRecursiveFast_spec vs). unfold SetProductRecursiveFast_mem, SetProductRecursiveFast. rewrite (@Forall2_length _ _ _ _ _ H). now apply product_fast_ok.
Qed.

Lemma ProveMembership_ok : forall m base N set b n vs, holds m base b -> holds m N n -> Forall2 (holds m) set vs ->
  follows (length m) m (many m) (ProveMembership_mem m base N set) (ProveMembership b n vs).
Proof. intros m base N set b n vs Hb Hn H. unfold ProveMembership_mem, ProveMembership. rewrite (@Forall2_length _ _ _ _ _ H). now apply membership_ok. Qed.

Theorem C121_membership : forall m base N set b n vs, holds m base b -> holds m N n -> Forall2 (holds m) set vs ->
  0 < n -> 0 <= b < n -> Forall (fun x => 0 <= x) vs -> set <> [] ->
  exists m' ps ws, ProveMembership_mem m base N set = Ret (m', ps) /\ extends m m' /\ private m m' ps /\ Forall2 (holds m') ps ws /\ witnesses b n vs ws.
Proof.
  intros m base N set b n vs Hb Hn H Pn Pb Pv Hne.
  assert (Hv : vs <> []) by (intros ->; inversion H; subst; contradiction).
  destruct (ProveMembership_witnesses b n vs Pn Pb Pv Hv) as (ws & E & W).
  pose proof (ProveMembership_ok m base N set b n vs Hb Hn H) as F. rewrite E in F. destruct F as (m' & ps & E' & K & M).
  exists m', ps, ws. split; [exact E'|]. split; [now apply keeps_extends|]. split; [eapply many_private; eassumption|]. split; [exact (proj1 M)|exact W].
Qed.

Lemma finish_ok : forall m0 m N rep ps n vs ws, (length m0 <= length m)%nat -> holds m N n -> Forall2 (holds m) rep vs -> many m0 m ps ws ->
  follows (length m) m (fun m' r v => many m0 m' (snd r ++ [fst r]) (snd v ++ [fst v])) (finish_mem m N rep ps) (finish_acc n vs ws).
Proof.
  intros m0 m N rep ps n vs ws L Hn Hr M. unfold finish_mem, finish_acc, go_index.
  pose proof M as (Hp & _ & _). destruct Hp as [|p w ps ws Hp Hps]; [reflexivity|]. cbn [nth_error deref bind].
  destruct Hr as [|a x rep vs Ha Hr]; [reflexivity|]. cbn [nth_error deref bind].
  destruct (AccumulateNew_ok m p a N w x n Hp Ha Hn) as (m' & acc & E & K & O). rewrite E. cbn [bind].
  exists m', (acc, p :: ps). split; [reflexivity|]. split; [exact K|]. cbn [fst snd]. eapply many_app; [exact L|exact M|exact K|]. now apply many_one.
Qed.

(** the accumulator and the proofs of AccAndProve and ZKAccumulate, given the cells of the setup, of the representatives and
    of the randomizer *)
Theorem C121_entry_points : forall m G N r rep g n k vs, holds m G g -> holds m N n -> holds m r k -> Forall2 (holds m) rep vs ->
  0 < n -> 0 <= g < n -> 0 <= k -> Forall (fun x => 0 <= x) vs -> rep <> [] ->
  (exists m' acc ps ws, AccAndProve_mem m G N rep = Ret (m', (acc, ps)) /\ extends m m' /\ private m m' (ps ++ [acc]) /\
     holds m' acc (g ^ product vs mod n) /\ Forall2 (holds m') ps ws /\ witnesses g n vs ws) /\
  (exists m' acc ps ws, ZKAccumulate_mem m G N r rep = Ret (m', (acc, ps)) /\ extends m m' /\ private m m' (ps ++ [acc]) /\
     holds m' acc (g ^ (k * product vs) mod n) /\ Forall2 (holds m') ps ws /\ witnesses (g ^ k mod n) n vs ws).
Proof.
  intros m G N r rep g n k vs HG HN Hr Hrep Pn Pg Pk Pv Hne.
  assert (Hv : vs <> []) by (intros ->; inversion Hrep; subst; contradiction).
  assert (Sep : forall m' acc ps a ws, many m m' (ps ++ [acc]) (ws ++ [a]) -> length ps = length ws -> holds m' acc a /\ Forall2 (holds m') ps ws).
  { intros m' acc ps a ws (H & _ & _) L. apply Forall2_app_inv_l in H. destruct H as (w1 & w2 & H1 & H2 & E).
    inversion H2 as [|? a' ? l Ha H3]; subst. inversion H3; subst. apply app_inj_tail in E. destruct E as [-> ->]. split; assumption. }
  assert (Len : forall m' ps (ws : list Z) acc a, many m m' (ps ++ [acc]) (ws ++ [a]) -> length ps = length ws).
  { intros m' ps ws acc a (H & _ & _). apply Forall2_length in H. rewrite !app_length in H. cbn in H. lia. }
  split.
  - assert (F : follows (length m) m (fun m' r v => many m m' (snd r ++ [fst r]) (snd v ++ [fst v])) (AccAndProve_mem m G N rep) (AccAndProve_rep g n vs)).
    { unfold AccAndProve_mem, AccAndProve_rep. eapply follows_bind; [lia|apply ProveMembership_ok; eassumption|]. cbn beta iota.
      intros m1 ps ws K M. pose proof (proj1 K) as B. push K. pose proof (finish_ok m m1 N rep ps n vs ws B HN Hrep M) as Q.
      unfold follows in *. destruct (finish_acc n vs ws); [|exact Q|exact Q]. destruct Q as (m2 & x & E & K2 & R). exists m2, x. split; [exact E|]. split; [eapply keeps_le; eassumption|exact R]. }
    pose proof (AccAndProve_rep_spec g n vs Pn Pg Pv Hv) as E. rewrite E in F. destruct F as (m' & [acc ps] & E' & K & M). cbn [fst snd] in M.
    destruct (ProveMembership_witnesses g n vs Pn Pg Pv Hv) as (ws & Ew & W).
    assert (ws = wit g n 1 vs). { unfold AccAndProve_rep, finish_acc in E. rewrite Ew in E. cbn [bind] in E. destruct (go_index ws 0), (go_index vs 0); cbn [bind] in E; congruence. }
    subst ws. destruct (Sep _ _ _ _ _ M (Len _ _ _ _ _ M)) as [Ha Hp].
    exists m', acc, ps, (wit g n 1 vs). split; [exact E'|]. split; [now apply keeps_extends|]. split; [eapply many_private; eassumption|]. split; [exact Ha|split; [exact Hp|exact W]].
  - assert (F : follows (length m) m (fun m' r v => many m m' (snd r ++ [fst r]) (snd v ++ [fst v])) (ZKAccumulate_mem m G N r rep) (ZKAccumulate_rep g n k vs)).
    { unfold ZKAccumulate_mem, ZKAccumulate_rep. destruct (AccumulateNew_ok m G r N g k n HG Hr HN) as (m0 & base & E & K0 & Hb & _). rewrite E. cbn [bind]. pose proof (proj1 K0) as B0.
      apply (follows_step (length m) m m0); [lia|exact K0|]. push K0.
      eapply follows_bind; [lia|apply ProveMembership_ok; eassumption|]. cbn beta iota.
      intros m1 ps ws K M. pose proof (proj1 K) as B. push K. pose proof (finish_ok m m1 N rep ps n vs ws ltac:(lia) HN Hrep (many_from _ _ _ _ _ B0 M)) as Q.
      unfold follows in *. destruct (finish_acc n vs ws); [|exact Q|exact Q]. destruct Q as (m2 & x & E2 & K2 & R). exists m2, x. split; [exact E2|]. split; [eapply keeps_le; [|exact K2]; lia|exact R]. }
    pose proof (ZKAccumulate_rep_spec g n k vs Pn Pk Pv Hv) as E. rewrite E in F. destruct F as (m' & [acc ps] & E' & K & M). cbn [fst snd] in M.
    pose proof (AccumulateNew_spec g k n Pn Pk) as Eb.
    destruct (ProveMembership_witnesses (g ^ k mod n) n vs Pn (Z.mod_pos_bound _ _ Pn) Pv Hv) as (ws & Ew & W).
    assert (ws = wit g n k vs). { unfold ZKAccumulate_rep, finish_acc in E. rewrite Eb, Ew in E. cbn [bind] in E. destruct (go_index ws 0), (go_index vs 0); cbn [bind] in E; congruence. }
    subst ws. destruct (Sep _ _ _ _ _ M (Len _ _ _ _ _ M)) as [Ha Hp].
    exists m', acc, ps, (wit g n k vs). split; [exact E'|]. split; [now apply keeps_extends|]. split; [eapply many_private; eassumption|]. split; [exact Ha|split; [exact Hp|exact W]].
Qed.

(** Five elements, two of them the same cell, and the base is one of the elements too. *)
Example C121_case : exists m', AccAndProve_mem [3; 101; 5; 7] 0%nat 1%nat [0; 2; 3; 2; 0]%nat = Ret (m', (38, [33; 34; 35; 36; 37])%nat) /\
  firstn 4 m' = [3; 101; 5; 7].
Proof. eexists. split; [vm_compute; reflexivity|reflexivity]. Qed.

Print Assumptions C121_products.
Print Assumptions C121_membership.
Print Assumptions C121_entry_points.
