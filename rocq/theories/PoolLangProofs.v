(** The machine follows the reading: proof of [sim_execs]. *)
From Coq Require Import ZArith Bool String List Lia.
From Verif Require Import GoBig PoolLang.
Import ListNotations.
Local Open Scope nat_scope.

Section Sim.
Variable interp : op -> list Z -> outcome (option Z).
Variable coin : nat -> Z -> option Z.
Variable squares : Z -> option (Z * Z * Z).
Variable hash : list Z -> string.
Variable junk : nat -> Z.
Variable pick : nat -> nat.
Variable env : rstate -> (nat -> Z) * nat * list nat.
Variable strict : bool.
Notation exec := (PoolLang.exec interp coin squares hash junk pick env).
Notation execs := (PoolLang.execs interp coin squares hash junk pick env).
Notation simple := (PoolLang.simple interp coin squares hash junk pick).
Notation aexec := (PoolLang.aexec interp coin squares hash junk strict).
Notation aexecs := (PoolLang.aexecs interp coin squares hash junk strict).
Notation asimple := (PoolLang.asimple interp coin squares hash junk strict).
Notation rget := (PoolLang.rget junk pick).
Notation aget := (PoolLang.aget junk).

(** other goroutines keep off our cells; without strict there are none *)
Definition sound_pool (s : rstate) : Prop :=
  (NoDup (pool s) /\ forall a, In a (pool s) -> (a < next s)%nat) /\
  (NoDup (mine s) /\ forall a, In a (mine s) -> (a < next s)%nat /\ ~ In a (pool s)).
Definition respectful : Prop := forall s, sound_pool s -> let '(h, n, p) := env s in
  (next s <= n)%nat /\ NoDup p /\ (forall a, In a p -> (a < n)%nat /\ ~ In a (mine s)) /\ (forall a, In a (mine s) -> h a = heap s a).
Definition alone : Prop := forall s, env s = (heap s, next s, pool s).
Lemma alone_respectful : alone -> respectful.
Proof. intros H s [[P1 P2] [M1 M2]]. rewrite H. repeat split; auto. intros M. now apply (M2 a). Qed.

Variable P : list nat.
Variable hP : nat -> Z.
Record R (m : list nat) (A : astate) (S : rstate) : Prop := {
  R_len : length m = length (store A);
  R_live : forall i z, nth_error (store A) i = Some (z, Live) -> exists a, nth_error m i = Some a /\ heap S a = z /\ In a (mine S);
  R_shared : forall i z, nth_error (store A) i = Some (z, Shared) -> exists a, nth_error m i = Some a /\ heap S a = z /\ In a (mine S) /\
    forall j w, nth_error (store A) j = Some (w, Live) -> nth_error m j <> Some a;
  R_inj : forall i j a z w, nth_error (store A) i = Some (z, Live) -> nth_error (store A) j = Some (w, Live) ->
    nth_error m i = Some a -> nth_error m j = Some a -> i = j;
  R_pooled : strict = false -> forall i z, nth_error (store A) i = Some (z, Pooled) -> exists a, nth_error m i = Some a /\ heap S a = z /\ In a (pool S);
  R_env : forall x, match look (aenv A) x with ALoc i => exists a, nth_error m i = Some a /\ renv S x = Some a | ANil => renv S x = None | AUnknown => True end;
  R_pool : NoDup (pool S) /\ forall a, In a (pool S) -> (a < next S)%nat;
  R_mine : NoDup (mine S) /\ forall a, In a (mine S) -> (a < next S)%nat /\ ~ In a (pool S);
  R_defers : Forall2 (Forall2 (fun i a => match i, a with Some i, Some a => nth_error m i = Some a | None, None => True | _, _ => False end)) (adefers A) (rdefers S);
  R_count : adraws A = rdraws S /\ agets A = rgets S /\ aouts A = routs S;
  R_P : forall a, In a P -> In a (mine S) /\ heap S a = hP a /\ forall j w, nth_error (store A) j = Some (w, Live) -> nth_error m j <> Some a }.

Lemma interfere_R : respectful -> (strict = false -> alone) -> forall m A S, R m A S -> R m A (interfere env S).
Proof.
  intros HR HA m A S H. unfold interfere. pose proof (HR S (conj (R_pool _ _ _ H) (R_mine _ _ _ H))) as Q. destruct (env S) as [[h n] p] eqn:E. destruct Q as (Q1 & Q2 & Q3 & Q4).
  destruct H as [L1 L2 L3 L4 L5 L6 L7 L8 L9 L10 L11]. split; cbn [heap next pool mine renv rdraws rgets routs rdefers]; auto.
  - intros i z Hi. destruct (L2 i z Hi) as (a & Ha & Hz & Hm). exists a. rewrite Q4 by assumption. auto.
  - intros i z Hi. destruct (L3 i z Hi) as (a & Ha & Hz & Hm & HN). exists a. rewrite Q4 by assumption. auto.
  - intros HS i z Hi. specialize (HA HS S). rewrite HA in E. injection E as <- <- <-. auto.
  - split; [assumption|]. intros a Ha. now apply Q3.
  - destruct L8 as [N8 L8]. split; [assumption|]. intros a Ha. split; [specialize (L8 a Ha); lia|]. intros Hp. now apply Q3 in Hp.
  - intros a Ha. destruct (L11 a Ha) as (X & Y & Z). rewrite Q4 by assumption. auto.
Qed.

(** *** Lists *)
Lemma In_del : forall a b l, In b (del a l) -> In b l.
Proof. intros a b. induction l as [|c l IH]; cbn; [auto|]. destruct (Nat.eqb c a); [now right|]. cbn. intuition. Qed.
Lemma In_del_neq : forall a b l, In b l -> b <> a -> In b (del a l).
Proof. intros a b. induction l as [|c l IH]; cbn; [auto|]. intros [E|H] N; destruct (Nat.eqb_spec c a); cbn; auto; subst; contradiction. Qed.
Lemma NoDup_del : forall a l, NoDup l -> NoDup (del a l) /\ ~ In a (del a l).
Proof.
  intros a. induction l as [|c l IH]; cbn; intros H; [split; [constructor|auto]|]. inversion H as [|? ? N D]; subst. destruct (Nat.eqb_spec c a).
  - subst. auto.
  - destruct (IH D) as [I1 I2]. split; [constructor; [intros X; apply N; eapply In_del; exact X|assumption]|]. cbn. intuition.
Qed.
Lemma hset_eq : forall h a z, hset h a z a = z.
Proof. intros. unfold hset. now rewrite Nat.eqb_refl. Qed.
Lemma hset_neq : forall h a z b, b <> a -> hset h a z b = h b.
Proof. intros. unfold hset. destruct (Nat.eqb_spec b a); congruence. Qed.
Lemma supd_nth : forall A (l : list A) i v j, nth_error (supd l i v) j = if Nat.eqb j i then match nth_error l j with Some _ => Some v | None => None end else nth_error l j.
Proof.
  induction l as [|x l IH]; intros i v j; cbn [supd]; [destruct i, j; cbn; try reflexivity; now destruct (Nat.eqb j i)|].
  destruct i, j; cbn [nth_error Nat.eqb supd]; try reflexivity. apply IH.
Qed.
Lemma supd_len : forall A (l : list A) i v, length (supd l i v) = length l.
Proof. induction l as [|x l IH]; intros [|i] v; cbn; auto. Qed.
Lemma nth_snoc : forall A (l : list A) x i y, nth_error (l ++ [x]) i = Some y -> nth_error l i = Some y \/ (i = length l /\ x = y).
Proof.
  intros A l x i y H. destruct (Nat.lt_ge_cases i (length l)) as [L|L].
  - rewrite nth_error_app1 in H by assumption. auto.
  - rewrite nth_error_app2 in H by assumption. destruct (i - length l)%nat eqn:E; cbn in H; [|destruct n; discriminate]. right. split; [lia|congruence].
Qed.
Lemma nth_app_l : forall A (l r : list A) i y, nth_error l i = Some y -> nth_error (l ++ r) i = Some y.
Proof. intros A l r i y H. rewrite nth_error_app1; [assumption|]. apply nth_error_Some. congruence. Qed.
Lemma nth_mid : forall A (l : list A) x, nth_error (l ++ [x]) (length l) = Some x.
Proof. intros. rewrite nth_error_app2, Nat.sub_diag by lia. reflexivity. Qed.
Lemma nth_lt : forall A (l : list A) i y, nth_error l i = Some y -> (i < length l)%nat.
Proof. intros A l i y H. apply nth_error_Some. congruence. Qed.

(** *** Reading arguments *)
Lemma aread1_ok : forall m A S x, R m A S ->
  match aread1 strict A x with
  | AVals v => exists z a, v = [z] /\ renv S x = Some a /\ heap S a = z
  | ANilRead => renv S x = None
  | ABad => True
  end.
Proof.
  intros m A S x H. unfold aread1. pose proof (R_env _ _ _ H x) as E. destruct (look (aenv A) x) as [| |i]; auto.
  destruct E as (a & Ha & Ea). destruct (nth_error (store A) i) as [[z []]|] eqn:N; auto.
  - destruct (R_live _ _ _ H i z N) as (b & Hb & Hz & _). exists z, a. rewrite Ha in Hb. injection Hb as <-. auto.
  - destruct (R_shared _ _ _ H i z N) as (b & Hb & Hz & _). exists z, a. rewrite Ha in Hb. injection Hb as <-. auto.
  - destruct strict eqn:ST; [exact I|]. destruct (R_pooled _ _ _ H ST i z N) as (b & Hb & Hz & _). exists z, a. rewrite Ha in Hb. injection Hb as <-. auto.
Qed.
Lemma aargs_ok : forall m A S l, R m A S ->
  match aargs strict A l with AVals vs => rargs S l = Some vs | ANilRead => rargs S l = None | ABad => True end.
Proof.
  intros m A S l H. induction l as [|x l IH]; cbn [aargs rargs]; [reflexivity|]. pose proof (aread1_ok m A S x H) as E.
  destruct (aread1 strict A x) as [v| |]; auto.
  - destruct E as (z & a & -> & -> & <-). destruct (aargs strict A l); auto; now rewrite IH.
  - rewrite E. destruct (aargs strict A l); auto.
Qed.

(** *** Steps *)
Lemma alloc_R : forall m A S x z, R m A S -> R (m ++ [next S]) (aalloc A x z) (ralloc S x z).
Proof.
  intros m A S x z H. destruct H as [L1 L2 L3 L4 L5 L6 L7 L8 L9 L10 L11].
  assert (F : forall a, In a (mine S) -> a <> next S) by (intros a Ha E; destruct L8 as [_ L8]; specialize (L8 a Ha); lia).
  assert (FP : forall a, In a (pool S) -> a <> next S) by (intros a Ha E; destruct L7 as [_ L7]; specialize (L7 a Ha); lia).
  split; cbn [aalloc ralloc aset rset store aenv adraws agets aouts adefers heap next pool mine renv rdraws rgets routs rdefers].
  - rewrite !app_length. cbn. lia.
  - intros i w Hi. apply nth_snoc in Hi. destruct Hi as [Hi|[-> [= ->]]].
    + destruct (L2 i w Hi) as (a & Ha & Hw & Hm). exists a. split; [now apply nth_app_l|]. rewrite hset_neq by now apply F. split; [assumption|now right].
    + exists (next S). rewrite <- L1, nth_mid, hset_eq. split; [reflexivity|]. split; [reflexivity|now left].
  - intros i w Hi. apply nth_snoc in Hi. destruct Hi as [Hi|[-> [=]]].
    destruct (L3 i w Hi) as (a & Ha & Hw & Hm & HN). exists a. split; [now apply nth_app_l|]. rewrite hset_neq by now apply F. split; [assumption|]. split; [now right|].
    intros j v Hj. apply nth_snoc in Hj. destruct Hj as [Hj|[-> _]].
    + pose proof (nth_lt _ _ _ _ Hj). rewrite nth_error_app1 by lia. now apply (HN j v).
    + rewrite <- L1, nth_mid. intros [= E]. apply F in Hm. congruence.
  - intros i j a u v Hi Hj Mi Mj. apply nth_snoc in Hi. apply nth_snoc in Hj.
    destruct Hi as [Hi|[-> _]]; destruct Hj as [Hj|[-> _]]; try reflexivity.
    + pose proof (nth_lt _ _ _ _ Hi). pose proof (nth_lt _ _ _ _ Hj). rewrite nth_error_app1 in Mi, Mj by lia. eapply L4; eassumption.
    + pose proof (nth_lt _ _ _ _ Hi). rewrite nth_error_app1 in Mi by lia. rewrite <- L1, nth_mid in Mj. injection Mj as <-.
      destruct (L2 i u Hi) as (b & Hb & _ & Hm). rewrite Mi in Hb. injection Hb as <-. now apply F in Hm.
    + pose proof (nth_lt _ _ _ _ Hj). rewrite nth_error_app1 in Mj by lia. rewrite <- L1, nth_mid in Mi. injection Mi as <-.
      destruct (L2 j v Hj) as (b & Hb & _ & Hm). rewrite Mj in Hb. injection Hb as <-. now apply F in Hm.
  - intros HS i w Hi. apply nth_snoc in Hi. destruct Hi as [Hi|[-> [=]]]. destruct (L5 HS i w Hi) as (a & Ha & Hw & Hp). exists a.
    split; [now apply nth_app_l|]. rewrite hset_neq by now apply FP. auto.
  - intros y. cbn [look]. unfold eset. destruct (String.eqb y x).
    + exists (next S). split; [rewrite <- L1; apply nth_mid|reflexivity].
    + specialize (L6 y). destruct (look (aenv A) y); auto. destruct L6 as (a & Ha & E). exists a. split; [now apply nth_app_l|assumption].
  - destruct L7 as [N7 L7]. split; [assumption|]. intros a Ha. specialize (L7 a Ha). lia.
  - destruct L8 as [N8 L8]. split.
    + constructor; [|assumption]. intros X. apply F in X. congruence.
    + intros a [<-|Ha].
      * split; [lia|]. intros X. apply FP in X. congruence.
      * destruct (L8 a Ha). split; [lia|assumption].
  - clear - L9. induction L9 as [|d e D E HD HE IH]; constructor; [|assumption]. clear - HD.
    induction HD as [|[i|] [a|] d e H1 H2 IH]; constructor; try assumption; try contradiction. now apply nth_app_l.
  - assumption.
  - intros a Ha. destruct (L11 a Ha) as (X & Y & HN). rewrite hset_neq by now apply F. split; [now right|]. split; [assumption|].
    intros j v Hj. apply nth_snoc in Hj. destruct Hj as [Hj|[-> _]].
    + pose proof (nth_lt _ _ _ _ Hj). rewrite nth_error_app1 by lia. now apply (HN j v).
    + rewrite <- L1, nth_mid. intros [= E]. apply F in X. congruence.
Qed.

Lemma stale_nth : forall l i c, nth_error (map stale l) i = Some c -> exists d, nth_error l i = Some d /\ c = stale d.
Proof. intros l i c H. rewrite nth_error_map in H. destruct (nth_error l i) as [d|]; cbn in H; [|discriminate]. exists d. split; congruence. Qed.
Lemma stale_live : forall d z, (z, Live) = stale d -> d = (z, Live).
Proof. intros [w []] z; cbn; congruence. Qed.
Lemma stale_shared : forall d z, (z, Shared) = stale d -> d = (z, Shared).
Proof. intros [w []] z; cbn; congruence. Qed.
Lemma stale_pooled : forall d z, (z, Pooled) = stale d -> False.
Proof. intros [w []] z; cbn; congruence. Qed.
Lemma stale_R : forall m A S, R m A S -> R m (aset A (map stale (store A)) (aenv A)) S.
Proof.
  intros m A S H. destruct H as [L1 L2 L3 L4 L5 L6 L7 L8 L9 L10 L11].
  assert (LV : forall i z, nth_error (map stale (store A)) i = Some (z, Live) -> nth_error (store A) i = Some (z, Live)).
  { intros i z Hi. apply stale_nth in Hi. destruct Hi as (d & Hd & E). apply stale_live in E. now subst. }
  split; cbn [aset store aenv adraws agets aouts adefers]; auto.
  - now rewrite map_length.
  - intros i z Hi. apply stale_nth in Hi. destruct Hi as (d & Hd & E). apply stale_shared in E. subst.
    destruct (L3 i z Hd) as (a & Ha & Hz & Hm & HN). exists a. repeat split; auto. intros j w Hj. now apply (HN j w), LV.
  - intros i j a z w Hi Hj. apply (L4 i j a z w); auto.
  - intros _ i z Hi. apply stale_nth in Hi. destruct Hi as (d & Hd & E). exfalso. eapply stale_pooled. exact E.
  - intros a Ha. destruct (L11 a Ha) as (X & Y & HN). repeat split; auto. intros j w Hj. now apply (HN j w), LV.
Qed.
(** taking a cell out of the pool *)
Lemma take_R : forall m A S x z a, R m A S -> In a (pool S) -> (forall i w, nth_error (store A) i <> Some (w, Pooled)) ->
  R (m ++ [a]) (aalloc A x z) (rset S (hset (heap S) a z) (next S) (del a (pool S)) (a :: mine S) (eset (renv S) x (Some a))).
Proof.
  intros m A S x z a H Hp NP. destruct H as [L1 L2 L3 L4 L5 L6 L7 L8 L9 L10 L11].
  assert (F : forall b, In b (mine S) -> b <> a) by (intros b Hb E; subst; destruct L8 as [_ L8]; now apply (L8 a)).
  split; cbn [aalloc rset aset store aenv adraws agets aouts adefers heap next pool mine renv rdraws rgets routs rdefers].
  - rewrite !app_length. cbn. lia.
  - intros i w Hi. apply nth_snoc in Hi. destruct Hi as [Hi|[-> [= ->]]].
    + destruct (L2 i w Hi) as (b & Hb & Hw & Hm). exists b. split; [now apply nth_app_l|]. rewrite hset_neq by now apply F. split; [assumption|now right].
    + exists a. rewrite <- L1, nth_mid, hset_eq. split; [reflexivity|]. split; [reflexivity|now left].
  - intros i w Hi. apply nth_snoc in Hi. destruct Hi as [Hi|[-> [=]]].
    destruct (L3 i w Hi) as (b & Hb & Hw & Hm & HN). exists b. split; [now apply nth_app_l|]. rewrite hset_neq by now apply F. split; [assumption|]. split; [now right|].
    intros j v Hj. apply nth_snoc in Hj. destruct Hj as [Hj|[-> _]].
    + pose proof (nth_lt _ _ _ _ Hj). rewrite nth_error_app1 by lia. now apply (HN j v).
    + rewrite <- L1, nth_mid. intros [= E]. apply F in Hm. congruence.
  - intros i j b u v Hi Hj Mi Mj. apply nth_snoc in Hi. apply nth_snoc in Hj.
    destruct Hi as [Hi|[-> _]]; destruct Hj as [Hj|[-> _]]; try reflexivity.
    + pose proof (nth_lt _ _ _ _ Hi). pose proof (nth_lt _ _ _ _ Hj). rewrite nth_error_app1 in Mi, Mj by lia. eapply L4; eassumption.
    + pose proof (nth_lt _ _ _ _ Hi). rewrite nth_error_app1 in Mi by lia. rewrite <- L1, nth_mid in Mj. injection Mj as <-.
      destruct (L2 i u Hi) as (c & Hc & _ & Hm). rewrite Mi in Hc. injection Hc as <-. now apply F in Hm.
    + pose proof (nth_lt _ _ _ _ Hj). rewrite nth_error_app1 in Mj by lia. rewrite <- L1, nth_mid in Mi. injection Mi as <-.
      destruct (L2 j v Hj) as (c & Hc & _ & Hm). rewrite Mj in Hc. injection Hc as <-. now apply F in Hm.
  - intros HS i w Hi. apply nth_snoc in Hi. destruct Hi as [Hi|[-> [=]]]. exfalso. exact (NP i w Hi).
  - intros y. cbn [look]. unfold eset. destruct (String.eqb y x).
    + exists a. split; [rewrite <- L1; apply nth_mid|reflexivity].
    + specialize (L6 y). destruct (look (aenv A) y); auto. destruct L6 as (b & Hb & E). exists b. split; [now apply nth_app_l|assumption].
  - destruct L7 as [N7 L7]. split; [now apply NoDup_del|]. intros b Hb. apply In_del in Hb. auto.
  - destruct L7 as [N7 L7]. destruct L8 as [N8 L8]. split.
    + constructor; [|assumption]. intros X. apply F in X. congruence.
    + intros b [<-|Hb].
      * split; [auto|]. now apply NoDup_del.
      * destruct (L8 b Hb). split; [auto|]. intros X. apply In_del in X. contradiction.
  - clear - L9. induction L9 as [|d e D E HD HE IH]; constructor; [|assumption]. clear - HD.
    induction HD as [|[i|] [b|] d e H1 H2 IH]; constructor; try assumption; try contradiction. now apply nth_app_l.
  - assumption.
  - intros b Hb. destruct (L11 b Hb) as (X & Y & HN). rewrite hset_neq by now apply F. split; [now right|]. split; [assumption|].
    intros j v Hj. apply nth_snoc in Hj. destruct Hj as [Hj|[-> _]].
    + pose proof (nth_lt _ _ _ _ Hj). rewrite nth_error_app1 by lia. now apply (HN j v).
    + rewrite <- L1, nth_mid. intros [= E]. apply F in X. congruence.
Qed.
Lemma count_R : forall m A S A' S', R m A S -> store A' = store A -> aenv A' = aenv A -> adefers A' = adefers A ->
  heap S' = heap S -> next S' = next S -> pool S' = pool S -> mine S' = mine S -> renv S' = renv S -> rdefers S' = rdefers S ->
  adraws A' = rdraws S' /\ agets A' = rgets S' /\ aouts A' = routs S' -> R m A' S'.
Proof.
  intros m A S A' S' [L1 L2 L3 L4 L5 L6 L7 L8 L9 L10 L11] E1 E2 E3 F1 F2 F3 F4 F5 F6 C.
  split; rewrite ?E1, ?E2, ?E3, ?F1, ?F2, ?F3, ?F4, ?F5, ?F6; assumption.
Qed.
Lemma get_R : forall m A S x, R m A S -> exists m', R m' (aget A x) (rget S x).
Proof.
  intros m A S x H. pose proof (stale_R _ _ _ H) as HS. unfold PoolLang.aget, PoolLang.rget.
  pose proof (R_count _ _ _ H) as (C1 & C2 & C3). rewrite C2.
  destruct (nth_error (pool S) (pick (rgets S))) as [a|] eqn:E.
  - exists (m ++ [a]). eapply count_R; [apply (take_R m _ S x (junk (rgets S)) a HS)| try reflexivity..].
    + now apply nth_error_In in E.
    + intros i w Hi. cbn in Hi. apply stale_nth in Hi. destruct Hi as (d & _ & Hd). eapply stale_pooled. exact Hd.
    + cbn. auto.
  - exists (m ++ [next S]). eapply count_R; [apply (alloc_R m _ S x (junk (rgets S)) HS)|try reflexivity..]. cbn. auto.
Qed.
Lemma write_R : forall m A S i a z w, R m A S -> nth_error (store A) i = Some (w, Live) -> nth_error m i = Some a ->
  R m (aset A (supd (store A) i (z, Live)) (aenv A)) (rset S (hset (heap S) a z) (next S) (pool S) (mine S) (renv S)).
Proof.
  intros m A S i a z w H Hi Ha. destruct H as [L1 L2 L3 L4 L5 L6 L7 L8 L9 L10 L11].
  destruct (L2 i w Hi) as (a' & Ha' & _ & Hm). rewrite Ha in Ha'. injection Ha' as <-.
  assert (LV : forall j v, nth_error (supd (store A) i (z, Live)) j = Some (v, Live) -> exists u, nth_error (store A) j = Some (u, Live)).
  { intros j v Hj. rewrite supd_nth in Hj. destruct (Nat.eqb_spec j i); [subst; eauto|eauto]. }
  split; cbn [rset aset store aenv adraws agets aouts adefers heap next pool mine renv rdraws rgets routs rdefers]; auto.
  - now rewrite supd_len.
  - intros j v Hj. rewrite supd_nth in Hj. destruct (Nat.eqb_spec j i) as [->|NE].
    + rewrite Hi in Hj. injection Hj as <-. exists a. rewrite hset_eq. auto.
    + destruct (L2 j v Hj) as (b & Hb & Hv & Hbm). exists b. rewrite hset_neq; [auto|]. intros ->. apply NE. eapply L4; eassumption.
  - intros j v Hj. rewrite supd_nth in Hj. destruct (Nat.eqb_spec j i) as [->|NE]; [rewrite Hi in Hj; discriminate|].
    destruct (L3 j v Hj) as (b & Hb & Hv & Hbm & HN). exists b. rewrite hset_neq by (intros ->; exact (HN i w Hi Ha)). repeat split; auto.
    intros k u Hk. destruct (LV k u Hk) as [u' Hu]. now apply (HN k u').
  - intros j k b u v Hj Hk. destruct (LV j u Hj) as [u' Hu]. destruct (LV k v Hk) as [v' Hv]. eapply L4; eassumption.
  - intros HS j v Hj. rewrite supd_nth in Hj. destruct (Nat.eqb_spec j i) as [->|NE]; [rewrite Hi in Hj; discriminate|].
    destruct (L5 HS j v Hj) as (b & Hb & Hv & Hp). exists b. rewrite hset_neq; [auto|]. intros ->. destruct L8 as [_ L8]. now apply (L8 a Hm).
  - intros b Hb. destruct (L11 b Hb) as (X & Y & HN). rewrite hset_neq by (intros ->; exact (HN i w Hi Ha)). repeat split; auto.
    intros k u Hk. destruct (LV k u Hk) as [u' Hu]. now apply (HN k u').
Qed.
Lemma env_R : forall m A S x v r, R m A S -> match v with ALoc i => exists a, nth_error m i = Some a /\ r = Some a | ANil => r = None | AUnknown => True end ->
  R m (aset A (store A) ((x, v) :: aenv A)) (rset S (heap S) (next S) (pool S) (mine S) (eset (renv S) x r)).
Proof.
  intros m A S x v r [L1 L2 L3 L4 L5 L6 L7 L8 L9 L10 L11] E.
  split; cbn [rset aset store aenv adraws agets aouts adefers heap next pool mine renv rdraws rgets routs rdefers]; auto.
  intros y. cbn [look]. unfold eset. destruct (String.eqb y x); [exact E|apply L6].
Qed.
Lemma put_R : forall m A S i a z, R m A S -> nth_error (store A) i = Some (z, Live) -> nth_error m i = Some a ->
  R m (aset A (supd (store A) i (z, Pooled)) (aenv A)) (rput S a).
Proof.
  intros m A S i a z H Hi Ha. destruct H as [L1 L2 L3 L4 L5 L6 L7 L8 L9 L10 L11].
  destruct (L2 i z Hi) as (a' & Ha' & Hz & Hm). rewrite Ha in Ha'. injection Ha' as <-.
  assert (LV : forall j v, nth_error (supd (store A) i (z, Pooled)) j = Some (v, Live) -> nth_error (store A) j = Some (v, Live) /\ j <> i).
  { intros j v Hj. rewrite supd_nth in Hj. destruct (Nat.eqb_spec j i); [subst; rewrite Hi in Hj; discriminate|auto]. }
  split; cbn [rput rset aset store aenv adraws agets aouts adefers heap next pool mine renv rdraws rgets routs rdefers]; auto.
  - now rewrite supd_len.
  - intros j v Hj. apply LV in Hj. destruct Hj as [Hj NE]. destruct (L2 j v Hj) as (b & Hb & Hv & Hbm). exists b. repeat split; auto.
    apply In_del_neq; [assumption|]. intros ->. apply NE. eapply L4; eassumption.
  - intros j v Hj. rewrite supd_nth in Hj. destruct (Nat.eqb_spec j i) as [->|NE]; [rewrite Hi in Hj; discriminate|].
    destruct (L3 j v Hj) as (b & Hb & Hv & Hbm & HN). exists b. repeat split; auto.
    + apply In_del_neq; [assumption|]. intros ->. exact (HN i z Hi Ha).
    + intros k u Hk. apply LV in Hk. now apply (HN k u).
  - intros j k b u v Hj Hk. apply LV in Hj. apply LV in Hk. apply (L4 j k b u v); tauto.
  - intros HS j v Hj. rewrite supd_nth in Hj. destruct (Nat.eqb_spec j i) as [->|NE].
    + rewrite Hi in Hj. injection Hj as <-. exists a. repeat split; auto. now left.
    + destruct (L5 HS j v Hj) as (b & Hb & Hv & Hp). exists b. repeat split; auto. now right.
  - destruct L7 as [N7 L7]. destruct L8 as [N8 L8]. split.
    + constructor; [now apply L8|assumption].
    + intros b [<-|Hb]; [now apply L8|auto].
  - destruct L8 as [N8 L8]. destruct (NoDup_del a _ N8) as [D1 D2]. split; [assumption|]. intros b Hb. pose proof (In_del _ _ _ Hb) as Hb'.
    split; [now apply L8|]. intros [<-|X]; [contradiction|]. now apply (L8 b).
  - intros b Hb. destruct (L11 b Hb) as (X & Y & HN). repeat split; auto.
    + apply In_del_neq; [assumption|]. intros ->. exact (HN i z Hi Ha).
    + intros k u Hk. apply LV in Hk. now apply (HN k u).
Qed.
Lemma put_all_R : forall d e m A S, Forall2 (fun i a => match i, a with Some i, Some a => nth_error m i = Some a | None, None => True | _, _ => False end) d e ->
  R m A S -> forall A', aput_all A d = Some A' -> exists S', rput_all S e = Some S' /\ R m A' S'.
Proof.
  intros d e m A S HD. revert A S. induction HD as [|[i|] [a|] d e H1 H2 IH]; intros A S H A' E; cbn [aput_all rput_all] in *; try contradiction; try discriminate.
  - injection E as <-. eauto.
  - destruct (nth_error (store A) i) as [[z []]|] eqn:N; try discriminate. eapply IH; [|exact E]. now apply put_R.
Qed.
Lemma leave_R : forall m A S A', R m A S -> aleave A = Some A' -> exists S', rleave S = Some S' /\ R m A' S'.
Proof.
  intros m A S A' H E. unfold aleave in E. unfold rleave. pose proof (R_defers _ _ _ H) as D. inversion D as [E1 E2|d e D' E' HD HE E1 E2]; rewrite <- E1 in *; [discriminate|].
  eapply put_all_R; [exact HD| |exact E].
  destruct H as [L1 L2 L3 L4 L5 L6 L7 L8 L9 L10 L11].
  split; cbn [aset_defers rset_defers store aenv adraws agets aouts adefers heap next pool mine renv rdraws rgets routs rdefers]; auto.
Qed.
Lemma defers_R : forall m A S dA dS, R m A S ->
  Forall2 (Forall2 (fun i a => match i, a with Some i, Some a => nth_error m i = Some a | None, None => True | _, _ => False end)) dA dS ->
  R m (aset_defers A dA) (rset_defers S dS).
Proof.
  intros m A S dA dS [L1 L2 L3 L4 L5 L6 L7 L8 L9 L10 L11] D.
  split; cbn [aset_defers rset_defers store aenv adraws agets aouts adefers heap next pool mine renv rdraws rgets routs rdefers]; auto.
Qed.

Definition matches (ra : ares) (rr : rres) : Prop :=
  match ra, rr with
  | ADone A, RDone B => exists m, R m A B
  | AErr A, RErr B => exists m, R m A B
  | ACrash, RCrash => True
  | AStuck, _ => True
  | _, _ => False
  end.
Lemma simple_ok : forall i m A S, R m A S -> matches (asimple i A) (simple i S).
Proof.
  intros i m A S H. pose proof (R_count _ _ _ H) as (C1 & C2 & C3).
  destruct i as [x|x|x|x y|d o args|x o args|x lmt|x0 x1 x2 n|k args|l]; cbn [PoolLang.asimple PoolLang.simple].
  - exists (m ++ [next S]). now apply alloc_R.
  - cbn [matches]. eapply get_R. exact H.
  - pose proof (R_defers _ _ _ H) as D. pose proof (R_env _ _ _ H x) as E.
    inversion D as [E1 E2|d e D' E' HD HE E1 E2]; [cbn; exact I|].
    destruct (look (aenv A) x) as [| |i] eqn:EX; cbn; auto.
    + exists m. rewrite E. apply defers_R; [assumption|]. constructor; [|assumption]. constructor; [exact I|assumption].
    + destruct E as (a & Ha & E). exists m. rewrite E. apply defers_R; [assumption|]. constructor; [|assumption]. constructor; assumption.
  - pose proof (R_env _ _ _ H y) as E. destruct (look (aenv A) y) as [| |i] eqn:EX; cbn; auto; exists m; now apply env_R.
  - pose proof (aargs_ok m A S args H) as E. destruct (aargs strict A args) as [vs| |] eqn:EA; [| |exact I].
    + pose proof (R_env _ _ _ H d) as ED. destruct (look (aenv A) d) as [| |i] eqn:EX; [exact I|rewrite ED; exact I|].
      destruct ED as (a & Ha & ED). rewrite ED, E. destruct (nth_error (store A) i) as [[w []]|] eqn:N; try exact I.
      destruct (interp o vs) as [[z|]| |]; cbn; try exact I; exists m; [|assumption]. eapply write_R; eassumption.
    + pose proof (R_env _ _ _ H d) as ED. destruct (look (aenv A) d) as [| |i] eqn:EX; [exact I|rewrite ED; exact I|].
      destruct ED as (a & Ha & ED). rewrite ED, E. destruct (nth_error (store A) i) as [[w []]|] eqn:N; exact I.
  - pose proof (aargs_ok m A S args H) as E. destruct (aargs strict A args) as [vs| |] eqn:EA; [|rewrite E; exact I|exact I].
    rewrite E. destruct (interp o vs) as [[z|]| |]; cbn; try exact I.
    + exists (m ++ [next S]). now apply alloc_R.
    + exists m. apply (env_R m A S x ANil None H). reflexivity.
  - pose proof (aread1_ok m A S lmt H) as E. cbn [rargs]. destruct (aread1 strict A lmt) as [v| |]; [|rewrite E; exact I|exact I].
    destruct E as (z & a & -> & -> & <-). rewrite C1. destruct (coin (rdraws S) (heap S a)) as [w|]; cbn [matches].
    + exists (m ++ [next S]). apply (alloc_R m (aset_draws A) (set_draws S)). eapply count_R; [exact H|try reflexivity..]. cbn. auto.
    + exists m. eapply count_R; [exact H|try reflexivity..]. cbn. auto.
  - pose proof (aread1_ok m A S n H) as E. cbn [rargs]. destruct (aread1 strict A n) as [v| |]; [|rewrite E; exact I|exact I].
    destruct E as (z & a & -> & -> & <-). destruct (squares (heap S a)) as [[[u v] w]|]; cbn [matches]; [|eauto].
    eexists. do 3 apply alloc_R. exact H.
  - pose proof (aargs_ok m A S args H) as E. destruct (aargs strict A args) as [vs| |]; [|rewrite E; exact I|exact I]. rewrite E. cbn.
    exists m. eapply count_R; [exact H|try reflexivity..]. cbn. rewrite C3. auto.
  - exact I.
Qed.

Definition not_frame (i : instr) : bool := match i with IFrame _ => false | _ => true end.
Fixpoint instr_ind' (Q : instr -> Prop) (base : forall i, not_frame i = true -> Q i) (frame : forall l, Forall Q l -> Q (IFrame l)) (i : instr) : Q i :=
  match i as i return Q i with
  | IFrame l => frame l ((fix go l := match l return Forall Q l with [] => Forall_nil _ | i :: l => Forall_cons i (instr_ind' Q base frame i) (go l) end) l)
  | INew x => base (INew x) eq_refl
  | IGet x => base (IGet x) eq_refl
  | IDefer x => base (IDefer x) eq_refl
  | IAlias x y => base (IAlias x y) eq_refl
  | IOp d o args => base (IOp d o args) eq_refl
  | INewOp x o args => base (INewOp x o args) eq_refl
  | IDraw x l => base (IDraw x l) eq_refl
  | ISquares a b c d => base (ISquares a b c d) eq_refl
  | IOut k args => base (IOut k args) eq_refl
  end.

Hypothesis ok : respectful.
Hypothesis seq : strict = false -> alone.
Lemma sim_list : forall l, Forall (fun i => forall m A S, R m A S -> matches (aexec i A) (exec i S)) l ->
  forall m A S, R m A S -> matches (aexecs l A) (execs l S).
Proof.
  intros l HF. induction HF as [|i l Hi Hl IH]; intros m A S H; cbn [PoolLang.aexecs PoolLang.execs]; [exists m; assumption|].
  specialize (Hi m A S H). destruct (aexec i A) as [A'|A'| |], (exec i S) as [S'|S'|]; cbn [matches] in *; try contradiction; auto.
  destruct Hi as [m' H']. eapply IH. exact H'.
Qed.
Lemma aexec_frame : forall l A, aexec (IFrame l) A =
  match aexecs l (aset_defers A ([] :: adefers A)) with
  | ADone s => match aleave s with Some s => ADone s | None => AStuck end
  | AErr s => match aleave s with Some s => AErr s | None => AStuck end
  | r => r
  end.
Proof. reflexivity. Qed.
Lemma exec_frame : forall l S, exec (IFrame l) S =
  match execs l (rset_defers S ([] :: rdefers S)) with
  | RDone s => match rleave s with Some s => RDone s | None => RCrash end
  | RErr s => match rleave s with Some s => RErr s | None => RCrash end
  | RCrash => RCrash
  end.
Proof. reflexivity. Qed.
Theorem sim_exec : forall i m A S, R m A S -> matches (aexec i A) (exec i S).
Proof.
  induction i as [i NF|l IH] using instr_ind'; intros m A S H.
  - apply (interfere_R ok seq) in H. destruct i; try (exact (simple_ok _ _ _ _ H)). discriminate NF.
  - rewrite aexec_frame, exec_frame. pose proof (sim_list l IH m _ _ (defers_R m A S ([] :: adefers A) ([] :: rdefers S) H ltac:(constructor; [constructor|apply H]))) as M.
    destruct (aexecs l _) as [A'|A'| |], (execs l _) as [S'|S'|]; cbn [matches] in M; try contradiction; try exact I.
    + destruct M as [m' H']. destruct (aleave A') as [A''|] eqn:E; [|exact I]. destruct (leave_R _ _ _ _ H' E) as (S'' & -> & H''). exists m'. exact H''.
    + destruct M as [m' H']. destruct (aleave A') as [A''|] eqn:E; [|exact I]. destruct (leave_R _ _ _ _ H' E) as (S'' & -> & H''). exists m'. exact H''.
Qed.
Theorem sim_execs : forall l m A S, R m A S -> matches (aexecs l A) (execs l S).
Proof. intros l. apply sim_list. apply Forall_forall. intros i _. apply sim_exec. Qed.
End Sim.

(** ** Calls *)
(** a state between two calls: nothing is deferred, the pool holds each cell once and none of ours *)
Record wf (S : rstate) : Prop := {
  wf_pool : NoDup (pool S) /\ forall a, In a (pool S) -> (a < next S)%nat;
  wf_mine : NoDup (mine S) /\ forall a, In a (mine S) -> (a < next S)%nat /\ ~ In a (pool S);
  wf_defers : rdefers S = [] }.
(** x points to a cell of ours that contains z *)
Definition holds (S : rstate) (x : var) (z : Z) : Prop := exists a, renv S x = Some a /\ In a (mine S) /\ heap S a = z.
(** our cells are still ours, with the same contents *)
Definition keeps (S S' : rstate) : Prop := forall a, In a (mine S) -> In a (mine S') /\ heap S' a = heap S a.

Fixpoint locs (ins : list (var * Z)) (i : nat) : list (var * aval) :=
  match ins with [] => [] | (y, _) :: ins => (y, ALoc i) :: locs ins (S i) end.
(** the reading starts from the inputs; everything else counts as unset *)
Definition start (ins : list (var * Z)) (draws gets : nat) (outs : list (string * string)) : astate :=
  {| store := map (fun p => (snd p, Shared)) ins; aenv := locs ins 0; adraws := draws; agets := gets; aouts := outs; adefers := [] |}.
Fixpoint assigned (i : instr) : list var :=
  match i with
  | INew x | IGet x | IAlias x _ | INewOp x _ _ | IDraw x _ => [x]
  | ISquares x0 x1 x2 _ => [x0; x1; x2]
  | IDefer _ | IOp _ _ _ | IOut _ _ => []
  | IFrame l => flat_map assigned l
  end.

Section Calls.
Variable interp : op -> list Z -> outcome (option Z).
Variable coin : nat -> Z -> option Z.
Variable squares : Z -> option (Z * Z * Z).
Variable hash : list Z -> string.
Variable junk : nat -> Z.
Variable pick : nat -> nat.
Variable env : rstate -> (nat -> Z) * nat * list nat.
Variable strict : bool.
Notation exec := (PoolLang.exec interp coin squares hash junk pick env).
Notation execs := (PoolLang.execs interp coin squares hash junk pick env).
Notation simple := (PoolLang.simple interp coin squares hash junk pick).
Notation aexec := (PoolLang.aexec interp coin squares hash junk strict).

Lemma locs_nth : forall ins i x j, look (locs ins i) x = ALoc j -> (i <= j)%nat /\ exists z, nth_error ins (j - i) = Some (x, z).
Proof.
  induction ins as [|[y z] ins IH]; intros i x j H; cbn [locs look] in H; [discriminate|]. destruct (String.eqb_spec x y) as [->|N].
  - injection H as <-. split; [lia|]. exists z. now rewrite Nat.sub_diag.
  - apply IH in H. destruct H as [L [w H]]. split; [lia|]. exists w. replace (j - i) with (S (j - S i)) by lia. exact H.
Qed.
Lemma locs_nil : forall ins i x, look (locs ins i) x <> ANil.
Proof. induction ins as [|[y z] ins IH]; intros i x; cbn [locs look]; [discriminate|]. destruct (String.eqb x y); [discriminate|apply IH]. Qed.
Lemma start_R : forall ins S, wf S -> Forall (fun p => holds S (fst p) (snd p)) ins ->
  exists m, R strict (mine S) (heap S) m (start ins (rdraws S) (rgets S) (routs S)) S.
Proof.
  intros ins S [W1 W2 W3] H. exists (map (fun p => match renv S (fst p) with Some a => a | None => 0 end) ins).
  assert (NL : forall i z, nth_error (map (fun p : var * Z => (snd p, Shared)) ins) i <> Some (z, Live)).
  { intros i z E. rewrite nth_error_map in E. destruct (nth_error ins i); cbn in E; congruence. }
  split; cbn [start store aenv adraws agets aouts adefers]; auto.
  - now rewrite !map_length.
  - intros i z E. now apply NL in E.
  - intros i z E. rewrite nth_error_map in E. destruct (nth_error ins i) as [[x w]|] eqn:N; cbn in E; [|discriminate]. injection E as ->.
    rewrite Forall_forall in H. destruct (H _ (nth_error_In _ _ N)) as (a & Ea & Ma & Ha). cbn in Ea, Ha. exists a. rewrite nth_error_map, N. cbn. rewrite Ea.
    repeat split; auto. intros j v E. now apply NL in E.
  - intros i j a z w E. now apply NL in E.
  - intros _ i z E. rewrite nth_error_map in E. destruct (nth_error ins i); cbn in E; congruence.
  - intros x. destruct (look (locs ins 0) x) as [| |i] eqn:E; [exact I|now apply locs_nil in E|]. apply locs_nth in E. destruct E as [_ [z E]]. rewrite Nat.sub_0_r in E.
    rewrite Forall_forall in H. destruct (H _ (nth_error_In _ _ E)) as (a & Ea & _). cbn in Ea. exists a. rewrite nth_error_map, E. cbn. now rewrite Ea.
  - rewrite W3. constructor.
  - intros a Ha. repeat split; auto. intros j w E. now apply NL in E.
Qed.

Lemma eset_other : forall A (e : var -> A) x v y, x <> y -> eset e x v y = e y.
Proof. intros A e x v y N. unfold eset. destruct (String.eqb_spec y x); congruence. Qed.
Lemma interfere_renv : forall S, renv (interfere env S) = renv S /\ rdefers (interfere env S) = rdefers S.
Proof. intros S. unfold interfere. destruct (env S) as [[h n] p]. auto. Qed.
Lemma rput_all_renv : forall l S S', rput_all S l = Some S' -> renv S' = renv S /\ rdefers S' = rdefers S.
Proof. induction l as [|[a|] l IH]; intros S S' H; cbn in H; try discriminate; [injection H as <-; auto|]. apply IH in H. exact H. Qed.
Definition unassigned (i : instr) : Prop := forall S S' x, (exec i S = RDone S' \/ exec i S = RErr S') -> ~ In x (assigned i) -> renv S' x = renv S x.
Lemma unassigned_list : forall l, Forall unassigned l -> forall S S' x, (execs l S = RDone S' \/ execs l S = RErr S') -> ~ In x (flat_map assigned l) -> renv S' x = renv S x.
Proof.
  intros l H. induction H as [|i l Hi Hl IH]; intros S S' x E N; cbn [PoolLang.execs flat_map] in *; [destruct E as [[= <-]|[=]]; reflexivity|].
  rewrite in_app_iff in N. destruct (exec i S) as [S1|S1|] eqn:E1.
  - rewrite (IH S1 S' x E) by tauto. apply (Hi S S1 x); [now left|tauto].
  - destruct E as [[=]|[= <-]]. apply (Hi S S1 x); [now right|tauto].
  - destruct E; discriminate.
Qed.
Lemma unassigned_all : forall i, unassigned i.
Proof.
  induction i as [i NF|l IH] using instr_ind'.
  - assert (SU : forall S S' x, (simple i S = RDone S' \/ simple i S = RErr S') -> ~ In x (assigned i) -> renv S' x = renv S x).
    { intros S S' x E N. destruct i as [y|y|y|y z|d o args|y o args|y lmt|x0 x1 x2 n|k args|l]; cbn [PoolLang.simple assigned In] in *.
      - destruct E as [[= <-]|[=]]. cbn. apply eset_other. tauto.
      - destruct E as [[= <-]|[=]]. unfold rget. destruct (nth_error _ _); cbn; apply eset_other; tauto.
      - destruct (rdefers S); destruct E as [E|E]; try discriminate. now injection E as <-.
      - destruct E as [[= <-]|[=]]. cbn. apply eset_other. tauto.
      - destruct (renv S d); [|destruct E; discriminate]. destruct (rargs S args); [|destruct E; discriminate].
        destruct (interp o l) as [[z|]| |]; destruct E as [E|E]; try discriminate; now injection E as <-.
      - destruct (rargs S args); [|destruct E; discriminate].
        destruct (interp o l) as [[z|]| |]; destruct E as [E|E]; try discriminate; injection E as <-; cbn; apply eset_other; tauto.
      - cbn [rargs] in E. destruct (renv S lmt); [|destruct E; discriminate]. destruct (coin _ _); destruct E as [E|E]; try discriminate; injection E as <-; cbn; auto. apply eset_other. tauto.
      - cbn [rargs] in E. destruct (renv S n); [|destruct E; discriminate]. destruct (squares _) as [[[u v] w]|]; destruct E as [E|E]; try discriminate; injection E as <-; cbn; auto.
        rewrite !eset_other by tauto. reflexivity.
      - destruct (rargs S args); [|destruct E; discriminate]. destruct E as [E|E]; [|discriminate]. now injection E as <-.
      - discriminate NF. }
    intros S S' x E N. destruct (interfere_renv S) as [IR _]. rewrite <- IR. apply SU; [|assumption]. destruct i; try exact E. discriminate NF.
  - intros S S' x E N. cbn [assigned] in N. rewrite exec_frame in E.
    destruct (execs l _) as [S1|S1|] eqn:E1; [| |destruct E; discriminate].
    + destruct (rleave S1) as [S2|] eqn:E2; [|destruct E; discriminate]. destruct E as [[= <-]|[=]].
      unfold rleave in E2. destruct (rdefers S1); [discriminate|]. apply rput_all_renv in E2. destruct E2 as [-> _]. cbn.
      rewrite (unassigned_list l IH _ S1 x (or_introl E1)) by assumption. reflexivity.
    + destruct (rleave S1) as [S2|] eqn:E2; [|destruct E; discriminate]. destruct E as [[=]|[= <-]].
      unfold rleave in E2. destruct (rdefers S1); [discriminate|]. apply rput_all_renv in E2. destruct E2 as [-> _]. cbn.
      rewrite (unassigned_list l IH _ S1 x (or_intror E1)) by assumption. reflexivity.
Qed.

(** a call leaves the deferred Puts of its callers alone *)
Definition balanced (i : instr) : Prop := forall S S' d rest, (exec i S = RDone S' \/ exec i S = RErr S') -> rdefers S = d :: rest -> exists d', rdefers S' = d' :: rest.
Lemma balanced_list : forall l, Forall balanced l -> forall S S' d rest, (execs l S = RDone S' \/ execs l S = RErr S') -> rdefers S = d :: rest -> exists d', rdefers S' = d' :: rest.
Proof.
  intros l H. induction H as [|i l Hi Hl IH]; intros S S' d rest E D; cbn [PoolLang.execs] in *; [destruct E as [[= <-]|[=]]; eauto|].
  destruct (exec i S) as [S1|S1|] eqn:E1.
  - destruct (Hi S S1 d rest (or_introl E1) D) as [d1 D1]. eapply IH; eassumption.
  - destruct E as [[=]|[= <-]]. exact (Hi S S1 d rest (or_intror E1) D).
  - destruct E; discriminate.
Qed.
Lemma frame_defers : forall l, Forall balanced l -> forall S S', (exec (IFrame l) S = RDone S' \/ exec (IFrame l) S = RErr S') -> rdefers S' = rdefers S.
Proof.
  intros l H S S' E. rewrite exec_frame in E.
  destruct (execs l _) as [S1|S1|] eqn:E1; [| |destruct E; discriminate].
  - destruct (balanced_list l H _ S1 [] (rdefers S) (or_introl E1) eq_refl) as [d1 D1].
    unfold rleave in E. rewrite D1 in E. destruct (rput_all _ _) as [S2|] eqn:E2; [|destruct E; discriminate]. destruct E as [[= <-]|[=]].
    apply rput_all_renv in E2. exact (proj2 E2).
  - destruct (balanced_list l H _ S1 [] (rdefers S) (or_intror E1) eq_refl) as [d1 D1].
    unfold rleave in E. rewrite D1 in E. destruct (rput_all _ _) as [S2|] eqn:E2; [|destruct E; discriminate]. destruct E as [[=]|[= <-]].
    apply rput_all_renv in E2. exact (proj2 E2).
Qed.
Lemma balanced_all : forall i, balanced i.
Proof.
  induction i as [i NF|l IH] using instr_ind'.
  - assert (SU : forall S S' d rest, (simple i S = RDone S' \/ simple i S = RErr S') -> rdefers S = d :: rest -> exists d', rdefers S' = d' :: rest).
    { intros S S' d0 rest E D. destruct i as [y|y|y|y z|d o args|y o args|y lmt|x0 x1 x2 n|k args|l]; cbn [PoolLang.simple] in *.
      - destruct E as [[= <-]|[=]]. cbn. eauto.
      - destruct E as [[= <-]|[=]]. unfold rget. destruct (nth_error _ _); cbn; eauto.
      - rewrite D in E. destruct E as [[= <-]|[=]]. cbn. eauto.
      - destruct E as [[= <-]|[=]]. cbn. eauto.
      - destruct (renv S d); [|destruct E; discriminate]. destruct (rargs S args); [|destruct E; discriminate].
        destruct (interp o l) as [[z|]| |]; destruct E as [E|E]; try discriminate; injection E as <-; cbn; eauto.
      - destruct (rargs S args); [|destruct E; discriminate].
        destruct (interp o l) as [[z|]| |]; destruct E as [E|E]; try discriminate; injection E as <-; cbn; eauto.
      - cbn [rargs] in E. destruct (renv S lmt); [|destruct E; discriminate]. destruct (coin _ _); destruct E as [E|E]; try discriminate; injection E as <-; cbn; eauto.
      - cbn [rargs] in E. destruct (renv S n); [|destruct E; discriminate]. destruct (squares _) as [[[u v] w]|]; destruct E as [E|E]; try discriminate; injection E as <-; cbn; eauto.
      - destruct (rargs S args); [|destruct E; discriminate]. destruct E as [E|E]; [|discriminate]. injection E as <-. cbn. eauto.
      - discriminate NF. }
    intros S S' d rest E D. destruct (interfere_renv S) as [_ IR]. rewrite <- IR in D. apply (SU (interfere env S) S' d rest); [|exact D]. destruct i; try exact E. discriminate NF.
  - intros S S' d rest E D. rewrite (frame_defers l IH S S' E), D. eauto.
Qed.

(** what a call leaves behind *)
Definition left_by (S S' : rstate) (A : astate) : Prop :=
  wf S' /\ keeps S S' /\ rdraws S' = adraws A /\ rgets S' = agets A /\ routs S' = aouts A /\
  forall x i z, look (aenv A) x = ALoc i -> nth_error (store A) i = Some (z, Live) -> holds S' x z /\ forall a, renv S' x = Some a -> ~ In a (mine S).
Theorem call : respectful env -> (strict = false -> alone env) -> forall l ins S, wf S -> Forall (fun p => holds S (fst p) (snd p)) ins ->
  match aexec (IFrame l) (start ins (rdraws S) (rgets S) (routs S)) with
  | ADone A => exists S', exec (IFrame l) S = RDone S' /\ left_by S S' A
  | AErr A => exists S', exec (IFrame l) S = RErr S' /\ left_by S S' A
  | ACrash => exec (IFrame l) S = RCrash
  | AStuck => True
  end.
Proof.
  intros HR HA l ins S W H. destruct (start_R ins S W H) as [m HS].
  assert (FIN : forall S' A, (exec (IFrame l) S = RDone S' \/ exec (IFrame l) S = RErr S') -> forall m', R strict (mine S) (heap S) m' A S' -> left_by S S' A).
  { intros S' A E m' [L1 L2 L3 L4 L5 L6 L7 L8 L9 (C1 & C2 & C3) L11]. split; [|split; [|split; [|split; [|split]]]]; auto.
    - split; auto. rewrite (frame_defers l (proj2 (Forall_forall _ _) (fun i _ => balanced_all i)) S S' E). apply W.
    - intros a Ha. destruct (L11 a Ha) as (X & Y & _). auto.
    - intros x i z Ex Ei. specialize (L6 x). rewrite Ex in L6. destruct L6 as (a & Ma & Ea). destruct (L2 i z Ei) as (b & Mb & Hb & Ib).
      rewrite Ma in Mb. injection Mb as <-. split; [exists a; auto|]. intros b Eb Ib'. rewrite Ea in Eb. injection Eb as <-. destruct (L11 a Ib') as (_ & _ & N). now apply (N i z). }
  pose proof (sim_exec interp coin squares hash junk pick env strict (mine S) (heap S) HR HA (IFrame l) m _ S HS) as M.
  destruct (aexec (IFrame l) _) as [A|A| |], (exec (IFrame l) S) as [S'|S'|] eqn:E; cbn [matches] in M; try contradiction; auto.
  - destruct M as [m' M]. exists S'. split; [reflexivity|]. eapply FIN; [left; reflexivity|exact M].
  - destruct M as [m' M]. exists S'. split; [reflexivity|]. eapply FIN; [right; reflexivity|exact M].
Qed.
End Calls.
