(** Proofs about ProveMembershipIter with explicit memory. *)
From Coq Require Import ZArith Bool Lia List ZifyNat ZifyBool.
From Verif Require Import GoBig GoBigFacts Spec AccModel AccFacts AccProofs IterModel.
Import ListNotations.
Open Scope Z_scope.

Ltac Zify.zify_post_hook ::= Z.to_euclidean_division_equations.

Lemma Forall2_impl : forall A B (P Q : A -> B -> Prop) l1 l2,
  (forall a b, P a b -> Q a b) -> Forall2 P l1 l2 -> Forall2 Q l1 l2.
Proof. intros A B P Q l1 l2 HPQ H. induction H; constructor; auto. Qed.

Lemma Forall2_length : forall A B (P : A -> B -> Prop) l1 l2, Forall2 P l1 l2 -> length l1 = length l2.
Proof. intros A B P l1 l2 H. induction H; cbn [length]; congruence. Qed.

Lemma NoDup_after : forall A (l1 l2 : list A) x a, NoDup (l1 ++ x :: l2) -> ~ In a (l1 ++ x :: l2) ->
  NoDup (l1 ++ x :: a :: l2).
Proof.
  intros A l1 l2 x a H Hn. apply NoDup_Add with (a := a) (l := l1 ++ x :: l2); [|auto].
  replace (l1 ++ x :: l2) with ((l1 ++ [x]) ++ l2) by (rewrite <- app_assoc; reflexivity).
  replace (l1 ++ x :: a :: l2) with ((l1 ++ [x]) ++ a :: l2) by (rewrite <- app_assoc; reflexivity).
  apply Add_app.
Qed.

(** ** updating a list at an index *)
Lemma nth_update : forall A (l : list A) i j x, (i < length l)%nat ->
  nth_error (firstn i l ++ x :: skipn (S i) l) j = if (j =? i)%nat then Some x else nth_error l j.
Proof.
  intros A l. induction l as [|y l IH]; intros i j x Hi; cbn [length] in Hi; [lia|].
  destruct i; cbn [firstn skipn app].
  - destruct j; reflexivity.
  - destruct j; [reflexivity|]. cbn [nth_error]. rewrite IH by lia. reflexivity.
Qed.
Lemma length_update : forall A (l : list A) i x, (i < length l)%nat ->
  length (firstn i l ++ x :: skipn (S i) l) = length l.
Proof. intros. rewrite app_length, firstn_length. cbn [length]. rewrite skipn_length. lia. Qed.

Lemma nth_ext_eq : forall A (l1 l2 : list A), (forall i, nth_error l1 i = nth_error l2 i) -> l1 = l2.
Proof.
  induction l1 as [|x l1 IH]; intros [|y l2] H; try reflexivity.
  - specialize (H 0%nat). discriminate.
  - specialize (H 0%nat). discriminate.
  - f_equal; [specialize (H 0%nat); now injection H|]. apply IH. intros i. apply (H (S i)).
Qed.

Lemma store_nth : forall m a v i, (a < length m)%nat ->
  nth_error (store m a v) i = if (i =? a)%nat then Some v else nth_error m i.
Proof. intros. now apply nth_update. Qed.
Lemma store_length : forall m a v, (a < length m)%nat -> length (store m a v) = length m.
Proof. intros. now apply length_update. Qed.
Lemma store_id : forall m a v, nth_error m a = Some v -> store m a v = m.
Proof.
  intros m a v H. assert (a < length m)%nat by (apply nth_error_Some; congruence).
  apply nth_ext_eq. intros i. rewrite store_nth by assumption.
  destruct (Nat.eqb_spec i a); [subst; congruence|reflexivity].
Qed.
Lemma store_store : forall m a v w, (a < length m)%nat -> store (store m a v) a w = store m a w.
Proof.
  intros m a v w H. apply nth_ext_eq. intros i.
  rewrite !store_nth by (rewrite ?store_length; assumption).
  destruct (i =? a)%nat; reflexivity.
Qed.

Lemma nth_lt : forall A (l : list A) i x, nth_error l i = Some x -> (i < length l)%nat.
Proof. intros. apply nth_error_Some. congruence. Qed.

(** ** accumulation in place *)
Lemma accumulate_spec : forall set m g N x n vals,
  nth_error m g = Some x -> nth_error m N = Some n -> N <> g ->
  Forall2 (fun a v => nth_error m a = Some v /\ a <> g) set vals ->
  accumulate m g N set = Ret (store m g (accumulate_val x n vals)).
Proof.
  induction set as [|a set IH]; intros m g N x n vals Hg HN Hne H; inversion H; subst; cbn [accumulate].
  - cbn. now rewrite store_id.
  - destruct H2 as [Ha Hag]. unfold load. rewrite Hg, Ha, HN. cbn [deref bind].
    pose proof (nth_lt _ _ _ _ Hg) as Hlt.
    erewrite IH with (x := exp_recv x x y n) (n := n) (vals := l').
    + rewrite store_store by assumption. reflexivity.
    + rewrite store_nth, Nat.eqb_refl by assumption. reflexivity.
    + rewrite store_nth by assumption. destruct (Nat.eqb_spec N g); [contradiction|assumption].
    + assumption.
    + eapply Forall2_impl; [|exact H4]. cbn. intros b v [Hb Hbg]. split; [|assumption].
      rewrite store_nth by assumption. destruct (Nat.eqb_spec b g); [contradiction|assumption].
Qed.

Lemma accumulateNew_spec : forall set m g N x n vals,
  nth_error m g = Some x -> nth_error m N = Some n ->
  Forall2 (fun a v => nth_error m a = Some v) set vals ->
  accumulateNew m g N set = Ret (m ++ [accumulate_val x n vals], length m).
Proof.
  intros set m g N x n vals Hg HN H. unfold accumulateNew, load. rewrite Hg. cbn [deref bind alloc].
  assert (L : forall a v, nth_error m a = Some v -> nth_error (m ++ [x]) a = Some v /\ a <> length m).
  { intros a v Ha. pose proof (nth_lt _ _ _ _ Ha). split; [now apply nth_error_app_left|lia]. }
  erewrite accumulate_spec with (x := x) (n := n) (vals := vals).
  - cbn [bind]. do 2 f_equal. apply nth_ext_eq. intros i.
    rewrite store_nth by (rewrite app_length; cbn; lia).
    destruct (Nat.eqb_spec i (length m)) as [->|Hi].
    + rewrite nth_error_app2, Nat.sub_diag by lia. reflexivity.
    + destruct (Nat.lt_ge_cases i (length m)).
      * rewrite !nth_error_app1 by lia. reflexivity.
      * rewrite !nth_error_app2 by lia. destruct (i - length m)%nat as [|[|k]] eqn:E; [lia| |];
        reflexivity.
  - rewrite nth_error_app2, Nat.sub_diag by lia. reflexivity.
  - now apply L.
  - apply L in HN. tauto.
  - eapply Forall2_impl; [|exact H]. cbn. intros a v Ha. now apply L.
Qed.

(** ** list segments of nodes *)
Inductive lseg (nds : list pnode) : option nat -> list (nat * pnode) -> option nat -> Prop :=
| lseg_nil e : lseg nds e [] e
| lseg_cons i nd L e : nth_error nds i = Some nd -> lseg nds (next nd) L e ->
    lseg nds (Some i) ((i, nd) :: L) e.

Lemma lseg_app : forall nds s L1 m L2 e, lseg nds s L1 m -> lseg nds m L2 e -> lseg nds s (L1 ++ L2) e.
Proof. intros nds s L1 m L2 e H. induction H; intros; cbn [app]; [assumption|]. constructor; auto. Qed.

Lemma lseg_in : forall nds s L e i nd, lseg nds s L e -> In (i, nd) L -> nth_error nds i = Some nd.
Proof.
  intros nds s L e i nd H. induction H as [|i' nd' L e Hi HL IH]; intros Hin; [contradiction|].
  destruct Hin as [E|Hin].
  - injection E as -> ->. assumption.
  - auto.
Qed.

Lemma lseg_cons_inv : forall nds s i nd L e, lseg nds s ((i, nd) :: L) e ->
  s = Some i /\ nth_error nds i = Some nd /\ lseg nds (next nd) L e.
Proof. intros nds s i nd L e H. inversion H; subst. auto. Qed.
Lemma lseg_nil_inv : forall nds s e, lseg nds s [] e -> s = e.
Proof. intros nds s e H. now inversion H. Qed.

Lemma lseg_update : forall nds nds' s L e, lseg nds s L e ->
  (forall i nd, In (i, nd) L -> nth_error nds' i = Some nd) -> lseg nds' s L e.
Proof.
  intros nds nds' s L e H. induction H; intros Hup; constructor.
  - apply Hup. now left.
  - apply IHlseg. intros. apply Hup. now right.
Qed.

Fixpoint contig (lo : nat) (L : list (nat * pnode)) (hi : nat) : Prop :=
  match L with
  | [] => lo = hi
  | (_, nd) :: L' => left nd = lo /\ (lo < right nd)%nat /\ contig (right nd) L' hi
  end.

Lemma contig_app : forall L1 L2 lo hi, contig lo (L1 ++ L2) hi <-> exists mid, contig lo L1 mid /\ contig mid L2 hi.
Proof.
  induction L1 as [|[i nd] L1 IH]; intros L2 lo hi; cbn [app contig].
  - split; [intros H; exists lo; auto|]. intros (mid & -> & H). assumption.
  - rewrite IH. split.
    + intros (H1 & H2 & mid & H3 & H4). exists mid. auto.
    + intros (mid & (H1 & H2 & H3) & H4). split; [|split]; auto. exists mid. auto.
Qed.

Lemma contig_length : forall L lo hi, contig lo L hi -> (length L + lo <= hi)%nat.
Proof.
  induction L as [|[i nd] L IH]; intros lo hi; cbn [contig length]; [lia|].
  intros (H1 & H2 & H3). apply IH in H3. lia.
Qed.

Definition big (p : nat * pnode) : bool := negb (right (snd p) - left (snd p) <=? 1)%nat.

Lemma Iter_ne : forall m base N set, set <> [] -> ProveMembershipIter m base N set =
  do st' <- passes (S (length set)) (State (m ++ [base]) [PNode 0 (length set) (length m) None]) 0 N set;
  do ps <- collect (S (length set)) (nodes st') (Some 0%nat);
  Ret (cells st', ps).
Proof. intros m base N [|a s] H; [congruence|reflexivity]. Qed.

Section Iter.
Variable m0 : mem.              (* caller's memory *)
Variable N : addr.
Variable set : list addr.
Variable n : Z.
Variable vals : list Z.
Variable base : Z.
Hypothesis HN : nth_error m0 N = Some n.
Hypothesis Hset : Forall2 (fun a v => nth_error m0 a = Some v) set vals.
Hypothesis Hn : 0 < n.
Hypothesis Hvals : nonneg vals.

Let k := length set.

Lemma vals_length : length vals = k.
Proof. unfold k. symmetry. eapply Forall2_length; eauto. Qed.

(** exponent accumulated outside the segment [l,r) *)
Definition outside (l r : nat) : Z := product (slice vals 0 l) * product (slice vals r k).

Definition val_ok (l r : nat) (v : Z) : Prop :=
  v = base ^ outside l r mod n \/ (l = 0%nat /\ r = k /\ v = base).

Definition cell_ok (m : mem) (p : nat * pnode) : Prop :=
  (length m0 <= proof (snd p))%nat /\
  exists v, nth_error m (proof (snd p)) = Some v /\ val_ok (left (snd p)) (right (snd p)) v.

Definition frame (m : mem) : Prop := forall a v, nth_error m0 a = Some v -> nth_error m a = Some v.

Record inv (st : state) (e : option nat) (D T : list (nat * pnode)) : Prop := Inv {
  inv_D : lseg (nodes st) (Some 0%nat) D e;
  inv_T : lseg (nodes st) e T None;
  inv_contig : contig 0 (D ++ T) k;
  inv_ids : NoDup (map fst (D ++ T));
  inv_proofs : NoDup (map (fun p => proof (snd p)) (D ++ T));
  inv_cells : Forall (cell_ok (cells st)) (D ++ T);
  inv_frame : frame (cells st)
}.

Lemma slice_vals_nonneg : forall a b, 0 <= product (slice vals a b).
Proof. intros. apply product_nonneg. now apply slice_Forall. Qed.
Lemma outside_nonneg : forall l r, 0 <= outside l r.
Proof. intros. unfold outside. apply Z.mul_nonneg_nonneg; apply slice_vals_nonneg. Qed.

Lemma Forall2_slice : forall A B (R : A -> B -> Prop) l1 l2 a b, Forall2 R l1 l2 ->
  Forall2 R (slice l1 a b) (slice l2 a b).
Proof.
  intros A B R l1 l2 a b H. unfold slice.
  assert (S : Forall2 R (skipn a l1) (skipn a l2)).
  { clear b. revert a. induction H; intros [|a]; cbn [skipn]; auto. }
  revert S. generalize (skipn a l1), (skipn a l2). generalize (b - a)%nat as c. clear.
  induction c; intros l l0 H; cbn [firstn]; auto. inversion H; subst; auto.
Qed.

Lemma acc_step : forall l r a b v, val_ok l r v -> (a < b <= k)%nat ->
  accumulate_val v n (slice vals a b) = base ^ (outside l r * product (slice vals a b)) mod n.
Proof.
  intros l r a b v Hv Hab.
  rewrite accumulate_val_spec; auto using slice_Forall.
  - destruct Hv as [->|(-> & -> & ->)].
    + rewrite pow_mod_mul; auto using outside_nonneg, slice_vals_nonneg.
    + f_equal. f_equal. unfold outside, slice. rewrite !Nat.sub_diag. cbn [firstn].
      change (product []) with 1. lia.
  - intros E. pose proof (slice_length _ vals a b) as L. rewrite vals_length in L.
    rewrite E in L. cbn [length] in L. lia.
Qed.

Lemma outside_left : forall l mid r, (l <= mid <= r)%nat -> (r <= k)%nat ->
  outside l r * product (slice vals mid r) = outside l mid.
Proof.
  intros. unfold outside. rewrite (slice_app _ vals mid r k), product_app by lia. ring.
Qed.
Lemma outside_right : forall l mid r, (l <= mid <= r)%nat -> (r <= k)%nat ->
  outside l r * product (slice vals l mid) = outside mid r.
Proof.
  intros. unfold outside. rewrite (slice_app _ vals 0 l mid), product_app by lia. ring.
Qed.

Lemma contig_bounds : forall L lo hi i nd, contig lo L hi -> In (i, nd) L ->
  (lo <= left nd < right nd)%nat /\ (right nd <= hi)%nat.
Proof.
  induction L as [|[j nd'] L IH]; intros lo hi i nd H Hin; [contradiction|].
  cbn [contig] in H. destruct H as (H1 & H2 & H3).
  pose proof (contig_length _ _ _ H3).
  destruct Hin as [E|Hin].
  - injection E as -> ->. lia.
  - specialize (IH _ _ _ _ H3 Hin). lia.
Qed.

Lemma set_node_nth : forall nds i nd x j, (i < length nds)%nat ->
  nth_error (set_node nds i nd ++ [x]) j =
    if (j =? i)%nat then Some nd
    else if (j =? length nds)%nat then Some x else nth_error nds j.
Proof.
  intros nds i nd x j Hi. unfold set_node.
  destruct (Nat.lt_ge_cases j (length nds)) as [Hj|Hj].
  - rewrite nth_error_app1 by (rewrite length_update; assumption).
    rewrite nth_update by assumption. destruct (j =? i)%nat; [reflexivity|].
    destruct (Nat.eqb_spec j (length nds)); [lia|reflexivity].
  - rewrite nth_error_app2 by (rewrite length_update; assumption).
    rewrite length_update by assumption.
    destruct (Nat.eqb_spec j i); [lia|]. destruct (Nat.eqb_spec j (length nds)) as [->|].
    + now rewrite Nat.sub_diag.
    + transitivity (@None pnode).
      * apply nth_error_None. cbn. lia.
      * symmetry. apply nth_error_None. lia.
Qed.

Lemma insert_spec : forall st i nd D T, inv st (Some i) D ((i, nd) :: T) -> big (i, nd) = true ->
  exists st' nd1 nd2, insertNewProofNode st i N set = Ret (st', next nd) /\
    inv st' (next nd) (D ++ [(i, nd1); (length (nodes st), nd2)]) T.
Proof.
  intros st i nd D T [ID IT IC II IP IX IF] Hbig.
  unfold big in Hbig. cbn [snd] in Hbig.
  apply lseg_cons_inv in IT. destruct IT as (_ & Hi & HT).
  assert (Hin : In (i, nd) (D ++ (i, nd) :: T)) by (apply in_or_app; right; now left).
  destruct (contig_bounds _ _ _ _ _ IC Hin) as [Hb1 Hb2].
  assert (Hlr : (2 <= right nd - left nd)%nat) by lia.
  set (l := left nd) in *. set (r := right nd) in *.
  set (mid := (l + (r - l) / 2)%nat).
  assert (Hmid : (l < mid < r)%nat) by (unfold mid; lia).
  pose proof IX as IX'. rewrite Forall_forall in IX'.
  destruct (IX' _ Hin) as [Hfresh (v & Hv & Hval)]. cbn [snd] in *. fold l r in Hval.
  assert (Hset' : forall m, frame m -> Forall2 (fun a v => nth_error m a = Some v) set vals).
  { intros m Hm. eapply Forall2_impl; [|exact Hset]. cbn. auto. }
  unfold insertNewProofNode. rewrite Hi. cbn [deref bind]. fold l r mid.
  rewrite !go_slice_ret by (fold k; lia). cbn [bind].
  erewrite accumulateNew_spec; [|exact Hv|apply IF; exact HN|apply Forall2_slice; apply Hset'; exact IF].
  cbn [bind].
  set (m1 := cells st ++ [accumulate_val v n (slice vals l mid)]).
  assert (Hm1 : forall a w, nth_error (cells st) a = Some w -> nth_error m1 a = Some w)
    by (intros; now apply nth_error_app_left).
  assert (Fm1 : frame m1) by (intros a w Ha; apply Hm1; now apply IF).
  assert (Hp_lt : (proof nd < length (cells st))%nat) by (now apply nth_lt in Hv).
  erewrite accumulate_spec with (x := v) (n := n) (vals := slice vals mid r).
  2: now apply Hm1.
  2: apply Fm1; exact HN.
  2: apply nth_lt in HN; lia.
  2: { eapply Forall2_impl; [|apply Forall2_slice; exact Hset]. cbn. intros a w Ha. split; [now apply Fm1|].
       apply nth_lt in Ha. lia. }
  cbn [bind next].
  set (v1 := accumulate_val v n (slice vals mid r)).
  set (v2 := accumulate_val v n (slice vals l mid)) in *.
  assert (Hv1 : v1 = base ^ outside l mid mod n).
  { unfold v1. rewrite (acc_step l r) by (auto; lia). rewrite outside_left by lia. reflexivity. }
  assert (Hv2 : v2 = base ^ outside mid r mod n).
  { unfold v2. rewrite (acc_step l r) by (auto; lia). rewrite outside_right by lia. reflexivity. }
  set (nd1 := PNode l mid (proof nd) (Some (length (nodes st)))).
  set (nd2 := PNode mid r (length (cells st)) (next nd)).
  eexists _, nd1, nd2. split; [reflexivity|].
  assert (Hilt : (i < length (nodes st))%nat) by (now apply nth_lt in Hi).
  assert (Hids : forall j x, In (j, x) (D ++ (i, nd) :: T) -> (j < length (nodes st))%nat).
  { intros j x Hj. apply in_app_or in Hj. destruct Hj as [Hj|[Hj|Hj]].
    - eapply lseg_in in Hj; [|exact ID]. now apply nth_lt in Hj.
    - injection Hj as <- <-. assumption.
    - eapply lseg_in in Hj; [|exact HT]. now apply nth_lt in Hj. }
  rewrite map_app in II. cbn [map fst] in II. pose proof (NoDup_remove_2 _ _ _ II) as Hnotin.
  assert (Hup : forall j x, In (j, x) (D ++ T) ->
     nth_error (set_node (nodes st) i nd1 ++ [nd2]) j = Some x).
  { intros j x Hj. rewrite set_node_nth by assumption.
    destruct (Nat.eqb_spec j i) as [->|].
    - exfalso. apply Hnotin. rewrite <- map_app. now apply in_map with (f := fst) in Hj.
    - assert (j < length (nodes st))%nat.
      { apply Hids with x. apply in_app_or in Hj. apply in_or_app. cbn [In]. tauto. }
      destruct (Nat.eqb_spec j (length (nodes st))); [lia|].
      apply in_app_or in Hj. destruct Hj as [Hj|Hj].
      + exact (lseg_in _ _ _ _ _ _ ID Hj).
      + exact (lseg_in _ _ _ _ _ _ HT Hj). }
  assert (Hpr : forall j x, In (j, x) (D ++ (i, nd) :: T) -> (proof x < length (cells st))%nat).
  { intros j x Hj. destruct (IX' _ Hj) as [_ (w & Hw & _)]. now apply nth_lt in Hw. }
  assert (Hlm1 : length m1 = S (length (cells st))) by (unfold m1; rewrite app_length; cbn; lia).
  constructor; cbn [nodes cells].
  - eapply lseg_app.
    + eapply lseg_update; [exact ID|]. intros. apply Hup. apply in_or_app. now left.
    + apply lseg_cons.
      * rewrite set_node_nth, Nat.eqb_refl by assumption. reflexivity.
      * cbn [next nd1]. apply lseg_cons; [|apply lseg_nil].
        rewrite set_node_nth by assumption. destruct (Nat.eqb_spec (length (nodes st)) i); [lia|].
        now rewrite Nat.eqb_refl.
  - eapply lseg_update; [exact HT|]. intros. apply Hup. apply in_or_app. now right.
  - apply contig_app in IC. destruct IC as (x & HC1 & HC2). cbn [contig] in HC2.
    destruct HC2 as (HC2 & HC3 & HC4). rewrite <- app_assoc. apply contig_app.
    exists x. split; [assumption|]. cbn [app contig left right nd1 nd2].
    split; [exact HC2|]. split; [lia|]. split; [reflexivity|]. split; [lia|]. exact HC4.
  - rewrite <- app_assoc, map_app. cbn [app map fst].
    apply NoDup_after; [assumption|].
    + intros Hx.
      change (i :: map fst T) with (map fst ((i, nd) :: T)) in Hx. rewrite <- map_app in Hx.
      apply in_map_iff in Hx. destruct Hx as ((j & x) & E & Hj). cbn [fst] in E. subst j.
      apply Hids in Hj. lia.
  - rewrite <- app_assoc, map_app. cbn [app map snd proof nd1 nd2].
    rewrite map_app in IP. cbn [map snd] in IP.
    set (f := fun p : nat * pnode => proof (snd p)) in *.
    apply NoDup_after; [assumption|].
    + intros Hx.
      change (proof nd :: map f T) with (map f ((i, nd) :: T)) in Hx. rewrite <- map_app in Hx.
      apply in_map_iff in Hx. destruct Hx as ((j & x) & E & Hj). unfold f in E. cbn [snd] in E.
      apply Hpr in Hj. lia.
  - assert (Hother : forall j x, In (j, x) (D ++ T) -> cell_ok (store m1 (proof nd) v1) (j, x)).
    { intros j x Hj.
      assert (Hj' : In (j, x) (D ++ (i, nd) :: T)).
      { apply in_app_or in Hj. apply in_or_app. cbn [In]. tauto. }
      destruct (IX' _ Hj') as [Hf (w & Hw & Hok)]. split; [assumption|]. exists w. split; [|assumption].
      rewrite store_nth by lia. cbn [snd] in *.
      destruct (Nat.eqb_spec (proof x) (proof nd)) as [E|]; [|now apply Hm1].
      exfalso. rewrite map_app in IP. cbn [map snd] in IP. apply NoDup_remove_2 in IP.
      apply IP. rewrite <- E, <- map_app.
      now apply in_map with (f := fun p : nat * pnode => proof (snd p)) in Hj. }
    apply Forall_forall. intros (j & x) Hj. rewrite <- app_assoc in Hj.
    apply in_app_or in Hj. destruct Hj as [Hj|[Hj|[Hj|Hj]]].
    + apply Hother. apply in_or_app. now left.
    + injection Hj as <- <-. split; [assumption|]. exists v1. cbn [snd proof left right nd1].
      split; [rewrite store_nth, Nat.eqb_refl by lia; reflexivity|]. now left.
    + injection Hj as <- <-. cbn [snd proof left right nd2].
      split; [apply nth_lt in HN; cbn [snd proof nd2]; lia|].
      exists v2. cbn [snd proof left right nd2].
      split; [|now left]. rewrite store_nth by lia.
      destruct (Nat.eqb_spec (length (cells st)) (proof nd)); [lia|].
      unfold m1. rewrite nth_error_app2, Nat.sub_diag by lia. reflexivity.
    + apply Hother. apply in_or_app. now right.
  - intros a w Ha. rewrite store_nth by lia.
    destruct (Nat.eqb_spec a (proof nd)) as [->|]; [apply nth_lt in Ha; lia|]. now apply Fm1.
Qed.

Lemma pass_spec : forall T fuel st e D flag, (length T <= fuel)%nat -> inv st e D T ->
  exists st' L, pass fuel st e flag N set = Ret (st', flag || existsb big T) /\
    inv st' None L [] /\
    (existsb big T = false -> L = D ++ T) /\
    (existsb big T = true -> (length D + length T < length L)%nat) /\
    (length D + length T <= length L)%nat.
Proof.
  induction T as [|[i nd] T IH]; intros fuel st e D flag Hf HI.
  - pose proof (inv_T _ _ _ _ HI) as HT. apply lseg_nil_inv in HT. subst e.
    exists st, D. destruct fuel; cbn [pass existsb length]; rewrite orb_false_r.
    + repeat split; auto; try discriminate; try (rewrite app_nil_r; reflexivity); try lia; apply HI.
    + repeat split; auto; try discriminate; try (rewrite app_nil_r; reflexivity); try lia; apply HI.
  - pose proof (inv_T _ _ _ _ HI) as HT. apply lseg_cons_inv in HT. destruct HT as (-> & Hi & HT).
    destruct fuel; cbn [length] in Hf; [lia|]. cbn [pass]. rewrite Hi. cbn [deref bind].
    destruct (Nat.leb_spec (right nd - left nd) 1) as [Hs|Hs].
    + assert (Hb : big (i, nd) = false) by (unfold big; cbn [snd]; lia).
      assert (HI' : inv st (next nd) (D ++ [(i, nd)]) T).
      { destruct HI. constructor; try (rewrite <- app_assoc; assumption); auto.
        eapply lseg_app; [eassumption|]. constructor; [assumption|constructor]. }
      destruct (IH fuel st (next nd) (D ++ [(i, nd)]) flag ltac:(lia) HI') as (st' & L & E & HL & H1 & H2 & H3).
      exists st', L. cbn [existsb]. rewrite Hb. cbn [orb]. rewrite app_length in *. cbn [length] in *.
      split; [exact E|]. split; [exact HL|]. split; [|split].
      * intros Hx. rewrite (H1 Hx), <- app_assoc. reflexivity.
      * intros Hx. specialize (H2 Hx). lia.
      * lia.
    + assert (Hb : big (i, nd) = true) by (unfold big; cbn [snd]; lia).
      destruct (insert_spec _ _ _ _ _ HI Hb) as (st1 & nd1 & nd2 & E1 & HI').
      rewrite E1. cbn [bind].
      destruct (IH fuel st1 (next nd) _ true ltac:(lia) HI') as (st' & L & E & HL & H1 & H2 & H3).
      exists st', L. cbn [existsb]. rewrite Hb, orb_true_r. rewrite app_length in *. cbn [length orb] in *.
      split; [exact E|]. split; [exact HL|]. split; [discriminate|]. split; [intros _; lia|lia].
Qed.

Lemma passes_spec : forall fuel st L, (k < fuel + length L)%nat -> inv st (Some 0%nat) [] L ->
  exists st' L', passes fuel st 0%nat N set = Ret st' /\ inv st' (Some 0%nat) [] L' /\ existsb big L' = false.
Proof.
  induction fuel; intros st L Hf HI.
  - pose proof (contig_length _ _ _ (inv_contig _ _ _ _ HI)) as HC. cbn [app] in HC. lia.
  - cbn [passes].
    pose proof (contig_length _ _ _ (inv_contig _ _ _ _ HI)) as HC. cbn [app] in HC.
    destruct (pass_spec L (S (length set)) st (Some 0%nat) [] false ltac:(fold k; lia) HI)
      as (st' & L' & E & HL & H1 & H2 & H3).
    rewrite E. cbn [bind orb length] in *.
    assert (HI' : inv st' (Some 0%nat) [] L').
    { destruct HL. rewrite app_nil_r in *. constructor; auto. constructor. }
    destruct (existsb big L) eqn:EB.
    + apply (IHfuel st' L'); auto. specialize (H2 eq_refl). lia.
    + exists st', L'. split; [reflexivity|]. split; [assumption|].
      rewrite (H1 eq_refl). cbn [app]. assumption.
Qed.

Lemma collect_spec : forall nds s L, lseg nds s L None -> forall fuel, (length L <= fuel)%nat ->
  collect fuel nds s = Ret (map (fun p => proof (snd p)) L).
Proof.
  intros nds s L H. remember None as e eqn:Ee. induction H; intros fuel Hf; subst.
  - destruct fuel; reflexivity.
  - destruct fuel; cbn [length] in Hf; [lia|]. cbn [collect]. rewrite H. cbn [deref bind].
    rewrite IHlseg by (auto; lia). reflexivity.
Qed.

Lemma contig_small : forall L lo hi, contig lo L hi -> existsb big L = false ->
  length L = (hi - lo)%nat /\
  forall i p, nth_error L i = Some p -> left (snd p) = (lo + i)%nat /\ right (snd p) = S (lo + i).
Proof.
  induction L as [|[j nd] L IH]; intros lo hi HC HB; cbn [contig existsb length] in *.
  - split; [lia|]. intros [|i] p H; discriminate.
  - destruct HC as (H1 & H2 & H3). apply orb_false_iff in HB. destruct HB as [HB1 HB2].
    unfold big in HB1. cbn [snd] in HB1.
    assert (Hr : right nd = S lo) by lia. rewrite Hr in H3.
    destruct (IH _ _ H3 HB2) as [L1 L2]. pose proof (contig_length _ _ _ H3). split; [lia|].
    intros [|i] p H0; cbn [nth_error] in H0.
    + injection H0 as <-. cbn [snd]. lia.
    + apply L2 in H0. lia.
Qed.

Lemma outside_one : forall i, (i < k)%nat -> outside i (S i) = product (without i vals).
Proof.
  intros i Hi. unfold outside, without. rewrite product_app. unfold slice.
  rewrite Nat.sub_0_r. cbn [skipn]. f_equal. f_equal. rewrite <- vals_length.
  rewrite firstn_all2; [reflexivity|]. change (length (skipn (S i) vals) <= length vals - S i)%nat. rewrite skipn_length. lia.
Qed.

Lemma load_all_spec : forall m l vs, Forall2 (fun a v => nth_error m a = Some v) l vs ->
  load_all m l = Ret vs.
Proof.
  intros m l vs H. unfold load_all. induction H; cbn [map_outcome]; [reflexivity|].
  unfold load at 1. rewrite H. cbn [deref bind]. rewrite IHForall2. reflexivity.
Qed.

Lemma Iter_spec : set <> [] -> (2 <= k)%nat \/ 0 <= base < n ->
  exists m' ps, ProveMembershipIter m0 base N set = Ret (m', ps) /\
    length ps = k /\ frame m' /\ NoDup ps /\ Forall (fun a => (length m0 <= a)%nat) ps /\
    load_all m' ps = Ret (wit base n 1 vals).
Proof.
  intros Hne Hb.
  set (st0 := State (m0 ++ [base]) [PNode 0 k (length m0) None]).
  assert (HI : inv st0 (Some 0%nat) [] [(0%nat, PNode 0 k (length m0) None)]).
  { constructor; cbn [nodes cells st0 app map fst snd proof contig left right].
    - constructor.
    - constructor; [reflexivity|constructor].
    - repeat split; auto. unfold k. destruct set; [congruence|cbn; lia].
    - constructor; [intros []|constructor].
    - constructor; [intros []|constructor].
    - constructor; [|constructor]. split; cbn [snd proof left right]; [lia|].
      exists base. split; [rewrite nth_error_app2, Nat.sub_diag by lia; reflexivity|]. right. auto.
    - intros a v Ha. now apply nth_error_app_left. }
  destruct (passes_spec (S (length set)) st0 _ ltac:(fold k; cbn [length]; lia) HI) as (st' & L & E & HL & HB).
  pose proof (inv_contig _ _ _ _ HL) as HC. cbn [app] in HC.
  destruct (contig_small _ _ _ HC HB) as [HLlen HLnth]. rewrite Nat.sub_0_r in HLlen.
  exists (cells st'), (map (fun p => proof (snd p)) L). split; [|split; [|split; [|split; [|split]]]].
  - rewrite Iter_ne by assumption.
    fold k. fold st0. change (S k) with (S (length set)). rewrite E. cbn [bind].
    rewrite (collect_spec _ _ _ (inv_T _ _ _ _ HL)) by (fold k; lia). reflexivity.
  - now rewrite map_length.
  - apply HL.
  - apply (inv_proofs _ _ _ _ HL).
  - apply Forall_forall. intros a Ha. apply in_map_iff in Ha. destruct Ha as (p & <- & Hp).
    pose proof (inv_cells _ _ _ _ HL) as HX. cbn [app] in HX. rewrite Forall_forall in HX. now apply HX.
  - pose proof (inv_cells _ _ _ _ HL) as HX. cbn [app] in HX.
    assert (exists vs, Forall2 (fun p v => nth_error (cells st') (proof (snd p)) = Some v /\
                                   val_ok (left (snd p)) (right (snd p)) v) L vs) as [vs Hvs].
    { clear - HX. induction HX as [|p L [_ (v & Hv1 & Hv2)] HX IH]; [exists []; constructor|].
      destruct IH as [vs Hvs]. exists (v :: vs). constructor; auto. }
    assert (Hload : load_all (cells st') (map (fun p => proof (snd p)) L) = Ret vs).
    { apply load_all_spec. clear - Hvs. induction Hvs as [|p v L vs [Hv _] _ IH]; constructor; auto. }
    rewrite Hload. f_equal. apply list_nth_ext.
    + rewrite wit_length, vals_length, <- HLlen. symmetry. eapply Forall2_length; eauto.
    + intros i x y Hx Hy. apply wit_nth in Hy. rewrite Z.mul_1_l in Hy.
      assert (exists p, nth_error L i = Some p /\ val_ok (left (snd p)) (right (snd p)) x) as (p & Hp & Hok).
      { clear - Hvs Hx. revert i x Hx. induction Hvs as [|p v L vs [_ Hv] _ IH]; intros [|i] x Hx; try discriminate.
        - injection Hx as <-. exists p. auto.
        - apply IH in Hx. exact Hx. }
      destruct (HLnth _ _ Hp) as [Hl Hr]. cbn [plus] in *. rewrite Hl, Hr in Hok.
      assert (i < k)%nat by (rewrite <- HLlen; now apply nth_lt in Hp).
      rewrite Hy, <- outside_one by assumption.
      destruct Hok as [->|(-> & Hk & ->)]; [reflexivity|].
      destruct Hb as [Hb|Hb]; [lia|]. rewrite Hk.
      unfold outside, slice. rewrite !Nat.sub_diag. cbn [firstn].
      change (product [] * product []) with 1. rewrite Z.pow_1_r, Z.mod_small by lia. reflexivity.
Qed.
End Iter.

Lemma load_all_bound : forall m l vs, load_all m l = Ret vs -> Forall (fun a => (a < length m)%nat) l.
Proof.
  intros m l. unfold load_all. induction l as [|a l IH]; intros vs H; [constructor|].
  cbn [map_outcome] in H. unfold load at 1 in H. destruct (nth_error m a) as [v|] eqn:E; [|discriminate].
  cbn [deref bind] in H. destruct (map_outcome (load m) l) as [r| |] eqn:E2; try discriminate.
  constructor; [now apply nth_lt in E|]. now apply (IH r).
Qed.

(** ** values only *)
Lemma seq_values : forall (s : list Z) pre, 
  Forall2 (fun a v => nth_error (pre ++ s) a = Some v) (seq (length pre) (length s)) s.
Proof.
  induction s as [|x s IH]; intros pre; cbn [length seq]; constructor.
  - rewrite nth_error_app2, Nat.sub_diag by lia. reflexivity.
  - specialize (IH (pre ++ [x])). rewrite app_length in IH. cbn [length] in IH.
    rewrite Nat.add_1_r in IH. eapply Forall2_impl; [|exact IH]. cbn. intros a v Ha.
    rewrite <- app_assoc in Ha. exact Ha.
Qed.

Lemma ProveMembershipIter_val_spec : forall base N set, 0 < N -> nonneg set -> set <> [] ->
  base_ok base N set -> ProveMembershipIter_val base N set = Ret (wit base N 1 set).
Proof.
  intros base N set HN H Hne Hb. unfold ProveMembershipIter_val.
  destruct (Iter_spec (N :: set) 0%nat (seq 1 (length set)) N set base) as (m' & ps & E & _ & _ & _ & _ & HL); auto.
  - apply (seq_values set [N]).
  - destruct set; [congruence|discriminate].
  - rewrite seq_length. exact Hb.
  - rewrite E. cbn [bind]. exact HL.
Qed.
Lemma ProveMembershipIter_val_empty : forall base N, ProveMembershipIter_val base N [] = Ret [].
Proof. reflexivity. Qed.

Lemma AccAndProveIter_rep_spec : forall G N rep, 0 < N -> 0 <= G < N -> nonneg rep -> rep <> [] ->
  AccAndProveIter_rep G N rep = Ret (G ^ product rep mod N, wit G N 1 rep).
Proof.
  intros. unfold AccAndProveIter_rep. rewrite ProveMembershipIter_val_spec by (auto; now right).
  cbn [bind]. now apply finish_acc_spec.
Qed.
