(** Lists of goroutine states: replacing one of them, and sums and products over all of them. *)
From Coq Require Import ZArith Lia List.
Import ListNotations.

Fixpoint upd {A} (l : list A) (k : nat) (a : A) : list A :=
  match l, k with
  | [], _ => []
  | _ :: r, O => a :: r
  | x :: r, S k => x :: upd r k a
  end.

Lemma length_upd : forall A (l : list A) k a, length (upd l k a) = length l.
Proof. induction l; destruct k; cbn; intros; auto. Qed.
Lemma nth_upd_eq : forall A (l : list A) k a, k < length l -> nth_error (upd l k a) k = Some a.
Proof. induction l; destruct k; cbn; intros; try lia; auto. apply IHl. lia. Qed.
Lemma nth_upd_neq : forall A (l : list A) k j a, j <> k -> nth_error (upd l k a) j = nth_error l j.
Proof. induction l; destruct k, j; cbn; intros; auto; try congruence. Qed.
Lemma Forall_upd : forall A (P : A -> Prop) (l : list A) k a, Forall P l -> P a -> Forall P (upd l k a).
Proof.
  induction l; destruct k; cbn; intros; auto; inversion_clear H; constructor; auto.
Qed.
Lemma Forall_nth : forall A (P : A -> Prop) (l : list A) k a, Forall P l -> nth_error l k = Some a -> P a.
Proof. intros A P l k a H E. rewrite Forall_forall in H. apply H. eapply nth_error_In; eauto. Qed.
Lemma nth_some_lt : forall A (l : list A) k a, nth_error l k = Some a -> k < length l.
Proof. intros A l k a E. apply nth_error_Some. congruence. Qed.

Definition nsum {A} (f : A -> nat) (l : list A) : nat := fold_right (fun a s => f a + s) 0 l.
Definition zprod {A} (f : A -> Z) (l : list A) : Z := fold_right (fun a s => (f a * s)%Z) 1%Z l.

Lemma nsum_upd : forall A (f : A -> nat) l k a b, nth_error l k = Some a ->
  nsum f (upd l k b) + f a = nsum f l + f b.
Proof.
  induction l; destruct k; cbn; intros; try discriminate.
  - injection H as ->. lia.
  - specialize (IHl _ _ b H). unfold nsum in *. lia.
Qed.
Lemma zprod_upd : forall A (f : A -> Z) l k a b, nth_error l k = Some a ->
  (zprod f (upd l k b) * f a = zprod f l * f b)%Z.
Proof.
  induction l; destruct k; cbn; intros; try discriminate.
  - injection H as ->. ring.
  - specialize (IHl _ _ b H). unfold zprod in *. rewrite <- Z.mul_assoc, IHl. ring.
Qed.
(** when the new element counts for nothing *)
Lemma zprod_upd_1 : forall A (f : A -> Z) l k a b, nth_error l k = Some a -> f b = 1%Z ->
  (zprod f l = zprod f (upd l k b) * f a)%Z.
Proof. intros. rewrite (zprod_upd _ f l k a b H), H0. ring. Qed.
(** when the old element counted for nothing *)
Lemma zprod_upd_2 : forall A (f : A -> Z) l k a b, nth_error l k = Some a -> f a = 1%Z ->
  (zprod f (upd l k b) = zprod f l * f b)%Z.
Proof. intros. rewrite <- (zprod_upd _ f l k a b H), H0. ring. Qed.
Lemma nsum_app : forall A (f : A -> nat) l1 l2, nsum f (l1 ++ l2) = nsum f l1 + nsum f l2.
Proof. induction l1; cbn; intros; auto. unfold nsum in *. rewrite IHl1. lia. Qed.
Lemma zprod_app : forall A (f : A -> Z) l1 l2, (zprod f (l1 ++ l2) = zprod f l1 * zprod f l2)%Z.
Proof.
  induction l1; intros; [cbn [app]; unfold zprod at 2; cbn [fold_right]; ring|].
  cbn [app]. unfold zprod in *. cbn [fold_right]. rewrite IHl1. ring.
Qed.
Lemma nsum_zero : forall A (f : A -> nat) l, nsum f l = 0 <-> Forall (fun a => f a = 0) l.
Proof.
  induction l; cbn; split; intros; auto.
  - unfold nsum in *. constructor; [lia|]. apply IHl. lia.
  - inversion_clear H. apply IHl in H1. unfold nsum in *. lia.
Qed.
Lemma nsum_ge : forall A (f : A -> nat) l k a, nth_error l k = Some a -> f a <= nsum f l.
Proof.
  induction l; destruct k; cbn; intros; try discriminate.
  - injection H as ->. lia.
  - apply IHl in H. unfold nsum in *. lia.
Qed.
Lemma nsum_repeat : forall A (f : A -> nat) a n, nsum f (repeat a n) = n * f a.
Proof. induction n; intros; [reflexivity|]. unfold nsum in *. cbn [repeat fold_right]. rewrite IHn. reflexivity. Qed.
Lemma zprod_repeat_1 : forall A (f : A -> Z) a n, f a = 1%Z -> zprod f (repeat a n) = 1%Z.
Proof. induction n; intros; auto. unfold zprod in *. cbn [repeat fold_right]. rewrite IHn, H by assumption. ring. Qed.
Lemma nsum_pos : forall A (f : A -> nat) l, 0 < nsum f l -> exists k a, nth_error l k = Some a /\ 0 < f a.
Proof.
  induction l; cbn; intros; [lia|]. destruct (Nat.eq_dec (f a) 0) as [E|E].
  - unfold nsum in *. destruct IHl as (k & b & Hk & Hb); [lia|]. exists (S k), b. auto.
  - exists 0, a. split; [reflexivity|lia].
Qed.
