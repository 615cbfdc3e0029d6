(** Proofs about ProveMembershipIterParallel. *)
From Coq Require Import ZArith Bool List Arith Lia.
From Verif Require Import GoBig GoBigFacts Spec AccModel AccFacts IterModel ListUpd Sched ParIterModel.
Import ListNotations.
Local Open Scope nat_scope.

(** ** calNumWorkers *)
Lemma cal_loop_spec : forall fuel cpus p, 2 ^ p <= 2 * cpus -> 1 <= cpus -> S (S cpus) <= fuel + p ->
  exists k, cal_loop fuel cpus p (2 ^ p) = Ret (2 ^ k, k) /\ 2 ^ k <= cpus < 2 ^ (k + 1).
Proof.
  induction fuel as [|f IH]; intros cpus p H1 H2 H3.
  - exfalso. assert (p < 2 ^ p) by (apply Nat.pow_gt_lin_r; lia).
    assert (K : 2 * cpus < 2 ^ S (S cpus)). { assert (S cpus < 2 ^ S cpus) by (apply Nat.pow_gt_lin_r; lia). cbn [Nat.pow] in *. lia. }
    assert (2 ^ S (S cpus) <= 2 ^ p) by (apply Nat.pow_le_mono_r; lia). lia.
  - cbn [cal_loop]. destruct (Nat.leb_spec (2 ^ p) cpus) as [L|L].
    + replace (2 ^ p * 2) with (2 ^ (p + 1)) by (rewrite Nat.pow_add_r; reflexivity). apply IH; [rewrite Nat.pow_add_r; cbn; lia|lia|lia].
    + destruct p as [|p]; [cbn in L; lia|]. exists p. cbn [Nat.pow] in *. split; [|rewrite Nat.pow_add_r; cbn; lia].
      f_equal. f_equal; [|lia]. rewrite Nat.mul_comm. now apply Nat.div_mul.
Qed.
Lemma calNumWorkers_spec : forall cpus, 1 <= cpus -> exists k, calNumWorkers cpus = Ret (2 ^ k, k) /\ 2 ^ k <= cpus < 2 ^ (k + 1).
Proof. intros cpus H. unfold calNumWorkers. apply (cal_loop_spec _ _ 0); cbn; lia. Qed.

Lemma nth_skipn : forall A (l : list A) n i, nth_error (skipn n l) i = nth_error l (n + i).
Proof. induction l as [|x l IH]; intros [|n] i; cbn; auto. now destruct i. Qed.

(** ** values of segments *)
Section Values.
Variable base N : Z.
Variable set : list Z.
Hypothesis HN : (0 < N)%Z.
Hypothesis Hset : Forall (fun x => (0 <= x)%Z) set.

Definition Wits : list Z := wit base N 1 set.
Definition seg_ok (v : Z) (l r : nat) : Prop :=
  l < r <= length set /\ (0 <= v < N)%Z /\ wit v N 1 (slice set l r) = slice Wits l r.
Lemma Wits_length : length Wits = length set.
Proof. apply wit_length. Qed.
Lemma seg_all : (0 <= base < N)%Z -> set <> [] -> seg_ok base 0 (length set).
Proof.
  intros Hb Hne. split; [destruct set; [congruence|cbn; lia]|]. split; [assumption|].
  rewrite slice_full. rewrite <- Wits_length, slice_full. reflexivity.
Qed.
Lemma middle_bounds : forall l r, l + 2 <= r -> l < middle l r < r.
Proof.
  intros l r H. unfold middle. assert (1 <= (r - l) / 2) by (apply Nat.div_le_lower_bound; lia).
  assert ((r - l) / 2 < r - l) by (apply Nat.div_lt; lia). lia.
Qed.
Lemma app_inv_len : forall A (a b c d : list A), length a = length c -> a ++ b = c ++ d -> a = c /\ b = d.
Proof.
  induction a as [|x a IH]; intros b [|y c] d HL E; cbn in *; try discriminate; [auto|].
  injection E as -> E. injection HL as HL. destruct (IH _ _ _ HL E) as [-> ->]. auto.
Qed.
Lemma seg_split : forall v l m r, seg_ok v l r -> l < m < r ->
  seg_ok (accumulate_val v N (slice set m r)) l m /\ seg_ok (accumulate_val v N (slice set l m)) m r.
Proof.
  intros v l m r (H1 & H2 & H3) Hm.
  assert (P : forall a b, Forall (fun x => (0 <= x)%Z) (slice set a b)) by (intros; now apply slice_Forall).
  assert (Q : forall a b, (0 <= product (slice set a b))%Z) by (intros; now apply product_nonneg).
  rewrite !accumulate_val_spec' by auto.
  rewrite (slice_app _ set l m r) in H3 by lia. rewrite (slice_app _ Wits l m r) in H3 by lia.
  rewrite wit_app in H3. apply app_inv_len in H3.
  2: { rewrite wit_length, !slice_length by (rewrite ?Wits_length; lia). reflexivity. }
  destruct H3 as [H3 H4]. rewrite Z.mul_1_l in H3, H4.
  assert (R : forall e, (0 <= v ^ e mod N < N)%Z) by (intros; apply Z.mod_pos_bound; lia).
  split; (split; [lia|]; split; [apply R|]); rewrite wit_base by (auto; lia); rewrite Z.mul_1_r; assumption.
Qed.
Lemma seg_one : forall v l, seg_ok v l (S l) -> nth_error Wits l = Some v /\ slice Wits l (S l) = [v].
Proof.
  intros v l (H1 & H2 & H3).
  assert (E : exists x, slice set l (S l) = [x]).
  { assert (L : length (slice set l (S l)) = 1) by (rewrite slice_length by lia; lia).
    destruct (slice set l (S l)) as [|x [|y t]]; try discriminate. eauto. }
  destruct E as [x E]. rewrite E in H3. cbn [wit] in H3. change (product []) with 1%Z in H3. rewrite Z.mul_1_l, Z.pow_1_r, Z.mod_small in H3 by assumption.
  split; [|symmetry; exact H3]. unfold slice in H3. replace (S l - l) with 1 in H3 by lia.
  rewrite <- (Nat.add_0_r l). rewrite <- nth_skipn. destruct (skipn l Wits) as [|y t]; [discriminate|]. cbn in *. congruence.
Qed.
End Values.

(** ** proveMembershipIter *)
Section Worker.
Variable base N : Z.
Variable set : list Z.
Hypothesis HN : (0 < N)%Z.
Hypothesis Hset : Forall (fun x => (0 <= x)%Z) set.
Variable l0 r0 : nat.
Notation ok := (seg_ok base N set).
Notation Ws := (Wits base N set).

(** from pointer p at position l to pointer e at position r *)
Inductive lpath (nds : list wnode) : option nat -> nat -> option nat -> nat -> list nat -> Prop :=
| lp_nil : forall p l, lpath nds p l p l []
| lp_cons : forall i nd e r ids, nth_error nds i = Some nd -> ok (wp nd) (wl nd) (wr nd) -> lpath nds (wn nd) (wr nd) e r ids ->
    lpath nds (Some i) (wl nd) e r (i :: ids).
Lemma lpath_app : forall nds p l q m a, lpath nds p l q m a -> forall e r b, lpath nds q m e r b -> lpath nds p l e r (a ++ b).
Proof. induction 1; intros; cbn [app]; [assumption|]. econstructor; eauto. Qed.
Lemma lpath_len : forall nds p l e r ids, lpath nds p l e r ids -> l + length ids <= r.
Proof. induction 1 as [|i nd e r ids H1 (H2 & _) H3 IH]; cbn [length]; lia. Qed.
Lemma lpath_ext : forall nds nds' p l e r ids, lpath nds p l e r ids ->
  (forall i, In i ids -> nth_error nds' i = nth_error nds i) -> lpath nds' p l e r ids.
Proof.
  induction 1 as [|i nd e r ids H1 H2 H3 IH]; intros E; [constructor|]. econstructor; [|exact H2|].
  - rewrite E by now left. exact H1.
  - apply IH. intros. apply E. now right.
Qed.
Lemma lpath_lt : forall nds p l e r ids i, lpath nds p l e r ids -> In i ids -> i < length nds.
Proof.
  induction 1 as [|j nd e r ids H1 H2 H3 IH]; intros Hi; [destruct Hi|]. destruct Hi as [->|Hi]; [|auto].
  eapply nth_some_lt; eauto.
Qed.
Definition small (nds : list wnode) (i : nat) : Prop := forall nd, nth_error nds i = Some nd -> wr nd - wl nd <= 1.

Fixpoint walk (fuel : nat) (nds : list wnode) (p : option nat) : nat :=
  match p, fuel with
  | Some i, S f => match nth_error nds i with Some nd => S (walk f nds (wn nd)) | None => 0 end
  | _, _ => 0
  end.
Lemma walk_spec : forall nds p l r ids, lpath nds p l None r ids -> forall fuel, length ids <= fuel -> walk fuel nds p = length ids.
Proof.
  intros nds p l r ids H. remember None as e eqn:Ee. revert Ee. induction H as [p l|i nd e r ids H1 H2 H3 IH]; intros Ee fuel Hf.
  - subst p. destruct fuel; reflexivity.
  - cbn [length] in *. destruct fuel; [lia|]. cbn [walk]. rewrite H1. f_equal. apply IH; [assumption|lia].
Qed.
Definition suffix (s : W) : nat := walk (length (w_nodes s)) (w_nodes s) (w_iter s).

Definition helper_free (s : W) : Prop := w_hp s = HSelect /\ w_cancelled s = false.
Definition split_pos (s : W) (pre suf : list nat) (m : nat) : Prop :=
  lpath (w_nodes s) (Some 0) l0 (w_iter s) m pre /\ lpath (w_nodes s) (w_iter s) m None r0 suf /\
  NoDup (pre ++ suf) /\ length (pre ++ suf) = length (w_nodes s).
Definition helper_ok (s : W) (nd : wnode) (l r : nat) : Prop := w_cancelled s = false /\
  (w_hp s = HGot (middle l r) r \/ w_hp s = HSend (accumulate_val (wp nd) N (slice set (middle l r) r))).
Definition at_node (s : W) (i l r : nat) (nd : wnode) : Prop :=
  w_iter s = Some i /\ nth_error (w_nodes s) i = Some nd /\ wl nd = l /\ wr nd = r /\ l + 2 <= r.
Definition WInv (s : W) : Prop :=
  match w_pc s with
  | MOuter => helper_free s /\ exists ids, lpath (w_nodes s) (Some 0) l0 None r0 ids /\ NoDup ids /\ length ids = length (w_nodes s) /\
      (w_flag s = false -> Forall (small (w_nodes s)) ids)
  | MInner => helper_free s /\ exists pre suf m, split_pos s pre suf m /\ (w_flag s = false -> Forall (small (w_nodes s)) pre)
  | MSend i l r => helper_free s /\ exists pre suf m nd, split_pos s pre suf m /\ at_node s i l r nd
  | MCompute i l r => exists pre suf m nd, split_pos s pre suf m /\ at_node s i l r nd /\ helper_ok s nd l r
  | MRecv i l r nw => exists pre suf m nd, split_pos s pre suf m /\ at_node s i l r nd /\ helper_ok s nd l r /\
      nw = WNode (middle l r) r (accumulate_val (wp nd) N (slice set l (middle l r))) (wn nd)
  | MCollect ps => helper_free s /\ exists pre suf m, split_pos s pre suf m /\ Forall (small (w_nodes s)) suf /\ ps = slice Ws l0 m
  | MRet ps => ps = slice Ws l0 r0 /\ w_cancelled s = true /\ (w_hp s = HSelect \/ w_hp s = HDone)
  end.

Definition hv (h : hpc) : nat := match h with HGot _ _ => 2 | HSelect => 1 | HSend _ => 1 | HDone => 0 end.
Definition wmeasure (n : nat) (s : W) : nat :=
  (6 * n + 2) * (n - length (w_nodes s)) + (if w_flag s then 6 * n + 2 else 0) +
  match w_pc s with
  | MOuter => 2 * n + 5
  | MInner => 6 * suffix s + 2 * n + 6
  | MSend _ _ _ => 6 * suffix s + 2 * n + 5
  | MCompute _ _ _ => 6 * suffix s + 2 * n + 2 + hv (w_hp s)
  | MRecv _ _ _ _ => 6 * suffix s + 2 * n + 1 + hv (w_hp s)
  | MCollect _ => suffix s + 2
  | MRet _ => hv (w_hp s)
  end.
Definition wbound (n : nat) : nat := (6 * n + 2) * (n + 1) + 2 * n + 5.

Lemma wstart_inv : forall v, ok v l0 r0 -> WInv (wstart set v l0 r0) /\ wmeasure (r0 - l0) (wstart set v l0 r0) <= wbound (r0 - l0).
Proof.
  intros v H. pose proof H as (H1 & _). unfold wstart. assert (E : set <> []) by (intros E; rewrite E in H1; cbn in H1; lia).
  destruct set as [|x t] eqn:Es; [congruence|]. rewrite <- Es in *. split.
  - split; [split; reflexivity|]. exists [0]. cbn [w_nodes]. split.
    + apply (lp_cons _ 0 (WNode l0 r0 v None)); [reflexivity|exact H|constructor].
    + split; [repeat constructor; auto|]. split; [reflexivity|discriminate].
  - unfold wmeasure, wbound. cbn [w_nodes w_flag w_pc length]. 
    assert (A : (6 * (r0 - l0) + 2) * (r0 - l0 - 1) <= (6 * (r0 - l0) + 2) * (r0 - l0)) by (apply Nat.mul_le_mono_l; lia).
    rewrite Nat.mul_add_distr_l. lia.
Qed.

Lemma suffix_eq : forall s pre suf m, split_pos s pre suf m -> suffix s = length suf.
Proof.
  intros s pre suf m (H1 & H2 & H3 & H4). unfold suffix. eapply walk_spec; [exact H2|]. rewrite app_length in H4. lia.
Qed.
Lemma lpath_inv_none : forall nds m r suf, lpath nds None m None r suf -> suf = [] /\ m = r.
Proof. intros nds m r suf H. inversion H; subst. auto. Qed.
Lemma lpath_inv_some : forall nds i m r suf, lpath nds (Some i) m None r suf ->
  exists nd ids, nth_error nds i = Some nd /\ ok (wp nd) (wl nd) (wr nd) /\ wl nd = m /\ suf = i :: ids /\ lpath nds (wn nd) (wr nd) None r ids.
Proof.
  intros nds i m r suf H. inversion H as [|j nd e r' ids A1 A2 A3]; subst. exists nd, ids.
  split; [exact A1|]. split; [exact A2|]. split; [reflexivity|]. split; [reflexivity|exact A3].
Qed.
Lemma split_advance : forall s pre i ids m nd, split_pos s pre (i :: ids) m -> w_iter s = Some i -> nth_error (w_nodes s) i = Some nd ->
  ok (wp nd) (wl nd) (wr nd) -> wl nd = m -> lpath (w_nodes s) (wn nd) (wr nd) None r0 ids ->
  forall s', w_nodes s' = w_nodes s -> w_iter s' = wn nd -> split_pos s' (pre ++ [i]) ids (wr nd).
Proof.
  intros s pre i ids m nd (P1 & P2 & P3 & P4) Ei En Hok Hm Hp s' E1 E2. unfold split_pos. rewrite E1, E2, <- app_assoc.
  split; [|auto]. eapply lpath_app; [exact P1|]. rewrite Ei, <- Hm. econstructor; [exact En|exact Hok|constructor].
Qed.

(** the rendezvous that splits a node *)
Lemma split_insert : forall s pre suf m i l r nd, split_pos s pre suf m -> at_node s i l r nd ->
  exists ids, suf = i :: ids /\ length (pre ++ suf) < r0 - l0 /\
  let nw := WNode (middle l r) r (accumulate_val (wp nd) N (slice set l (middle l r))) (wn nd) in
  let nds' := upd (w_nodes s) i (WNode l (middle l r) (accumulate_val (wp nd) N (slice set (middle l r) r)) (Some (length (w_nodes s)))) ++ [nw] in
  forall s', w_nodes s' = nds' -> w_iter s' = wn nd -> split_pos s' (pre ++ [i; length (w_nodes s)]) ids r.
Proof.
  intros s pre suf m i l r nd (P1 & P2 & P3 & P4) (Ei & En & <- & <- & Hlr).
  rewrite Ei in P2. apply lpath_inv_some in P2. destruct P2 as (nd' & ids & En' & Hok & Hm & -> & Hp).
  rewrite En in En'. injection En' as <-. exists ids. split; [reflexivity|]. split.
  { pose proof (lpath_len _ _ _ _ _ _ P1) as L1. pose proof (lpath_len _ _ _ _ _ _ Hp) as L2.
    rewrite app_length. cbn [length]. lia. }
  intros nw nds' s' E1 E2. pose proof (middle_bounds _ _ Hlr) as MB.
  destruct (seg_split base N set HN Hset _ _ _ _ Hok MB) as [S1 S2].
  assert (Hi : i < length (w_nodes s)) by (eapply nth_some_lt; eauto).
  assert (N1 : forall j, j <> i -> j < length (w_nodes s) -> nth_error nds' j = nth_error (w_nodes s) j).
  { intros j Hj Hl. unfold nds'. rewrite nth_error_app1 by now rewrite length_upd. now apply nth_upd_neq. }
  assert (N2 : nth_error nds' i = Some (WNode (wl nd) (middle (wl nd) (wr nd)) (accumulate_val (wp nd) N (slice set (middle (wl nd) (wr nd)) (wr nd))) (Some (length (w_nodes s))))).
  { unfold nds'. rewrite nth_error_app1 by now rewrite length_upd. now apply nth_upd_eq. }
  assert (N3 : nth_error nds' (length (w_nodes s)) = Some nw).
  { unfold nds'. rewrite nth_error_app2 by (rewrite length_upd; lia). rewrite length_upd, Nat.sub_diag. reflexivity. }
  assert (Hlt : forall j, In j (pre ++ i :: ids) -> j < length (w_nodes s)).
  { intros j Hj. apply in_app_iff in Hj. destruct Hj as [Hj|[<-|Hj]]; [eapply lpath_lt; [exact P1|exact Hj]|exact Hi|eapply lpath_lt; [exact Hp|exact Hj]]. }
  assert (Hne : forall j, In j (pre ++ ids) -> j <> i).
  { intros j Hj ->. apply NoDup_remove_2 in P3. contradiction. }
  assert (Q1 : lpath nds' (Some 0) l0 (Some i) m pre).
  { eapply lpath_ext; [rewrite Ei in P1; exact P1|]. intros j Hj. apply N1; [apply Hne; apply in_app_iff; auto|apply Hlt; apply in_app_iff; auto]. }
  assert (Q2 : lpath nds' (wn nd) (wr nd) None r0 ids).
  { eapply lpath_ext; [exact Hp|]. intros j Hj. apply N1; [apply Hne; apply in_app_iff; auto|apply Hlt; apply in_app_iff; right; right; assumption]. }
  unfold split_pos. rewrite E1, E2. split; [|split; [exact Q2|split]].
  - eapply lpath_app; [exact Q1|]. rewrite <- Hm.
    refine (lp_cons _ i _ _ _ _ N2 S1 _). cbn [wn wr].
    refine (lp_cons _ (length (w_nodes s)) _ _ _ _ N3 S2 _). cbn [nw wn wr]. constructor.
  - rewrite <- app_assoc. cbn [app].
    apply (NoDup_Add (a := length (w_nodes s)) (l := pre ++ i :: ids)).
    { replace (pre ++ i :: ids) with ((pre ++ [i]) ++ ids) by now rewrite <- app_assoc.
      replace (pre ++ i :: length (w_nodes s) :: ids) with ((pre ++ [i]) ++ length (w_nodes s) :: ids) by now rewrite <- app_assoc.
      apply Add_app. }
    split; [exact P3|]. intros Hin. apply Hlt in Hin. lia.
  - unfold nds'. rewrite !app_length, length_upd. rewrite app_length in P4. cbn [length] in *. lia.
Qed.

Lemma slice_snoc : forall l m v, l <= m -> nth_error Ws m = Some v -> slice Ws l m ++ [v] = slice Ws l (S m).
Proof.
  intros l m v H E. rewrite (slice_app _ Ws l m (S m)) by lia. f_equal. unfold slice. replace (S m - m) with 1 by lia.
  rewrite <- (Nat.add_0_r m) in E. rewrite <- nth_skipn in E. destruct (skipn m Ws); [discriminate|]. cbn in *. congruence.
Qed.

Lemma wstep_inv : forall s c st, WInv s -> wstep N set s c = Some st ->
  exists s', st = Ret s' /\ WInv s' /\ wmeasure (r0 - l0) s' < wmeasure (r0 - l0) s.
Proof.
  intros s c st I H. destruct s as [nds it fl pc hp cn]. unfold wstep in H. cbn [w_nodes w_iter w_flag w_pc w_hp w_cancelled] in H.
  unfold WInv in I. cbn [w_pc] in I.
  destruct c.
  - destruct pc as [| |i l r|i l r|i l r nw|ps|ps]; try discriminate.
    + (* MOuter *) destruct I as ((F1 & F2) & ids & L & ND & LN & SM). cbn in F1, F2, L, LN, SM. subst hp cn.
      assert (SP : forall f pc, split_pos (MkW nds (Some 0) f pc HSelect false) [] ids l0).
      { intros. unfold split_pos. cbn. split; [constructor|]. auto. }
      pose proof (lpath_len _ _ _ _ _ _ L) as LL.
      destruct fl; injection H as <-; eexists; (split; [reflexivity|]); split.
      * split; [split; reflexivity|]. exists [], ids, l0. split; [apply SP|]. constructor.
      * unfold wmeasure. cbn [w_pc w_flag w_nodes]. rewrite (suffix_eq _ _ _ _ (SP _ _)). lia.
      * split; [split; reflexivity|]. exists [], ids, l0. split; [apply SP|]. split; [apply SM; reflexivity|].
        unfold slice. rewrite Nat.sub_diag. reflexivity.
      * unfold wmeasure. cbn [w_pc w_flag w_nodes]. rewrite (suffix_eq _ _ _ _ (SP _ _)). lia.
    + (* MInner *) destruct I as ((F1 & F2) & pre & suf & m & SP & SM). cbn in F1, F2. subst hp cn.
      destruct it as [i|].
      * pose proof SP as (P1 & P2 & P3 & P4). cbn [w_iter w_nodes] in *. apply lpath_inv_some in P2.
        destruct P2 as (nd & ids & En & Hok & Hm & -> & Hp). rewrite En in H. cbn [deref bind] in H.
        destruct (Nat.leb_spec (wr nd - wl nd) 1) as [Hs|Hs]; injection H as <-; eexists; (split; [reflexivity|]).
        -- assert (SP' : split_pos (MkW nds (wn nd) fl MInner HSelect false) (pre ++ [i]) ids (wr nd)).
           { eapply split_advance; [exact SP|reflexivity|exact En|exact Hok|exact Hm|exact Hp|reflexivity|reflexivity]. }
           split; [split; [split; reflexivity|]; exists (pre ++ [i]), ids, (wr nd); split; [exact SP'|]|].
           { cbn. intros E. apply Forall_app. split; [now apply SM|]. constructor; [|constructor]. intros nd' E'. rewrite En in E'. injection E' as <-. exact Hs. }
           unfold wmeasure. cbn [w_pc w_flag w_nodes]. rewrite (suffix_eq _ _ _ _ SP'), (suffix_eq _ _ _ _ SP). cbn [length]. lia.
        -- split; [split; [split; reflexivity|]; exists pre, (i :: ids), m, nd; split; [exact SP|]|].
           { cbn. repeat split; auto. lia. }
           unfold wmeasure. cbn [w_pc w_flag w_nodes]. change (suffix (MkW nds (Some i) fl (MSend i (wl nd) (wr nd)) HSelect false)) with (suffix (MkW nds (Some i) fl MInner HSelect false)). lia.
      * injection H as <-. eexists. split; [reflexivity|]. pose proof SP as (P1 & P2 & P3 & P4). cbn [w_iter w_nodes] in *.
        apply lpath_inv_none in P2. destruct P2 as [-> ->]. rewrite app_nil_r in *. split.
        -- split; [split; reflexivity|]. exists pre. auto.
        -- unfold wmeasure. cbn [w_pc w_flag w_nodes]. lia.
    + (* MCompute *) destruct I as (pre & suf & m & nd & SP & AN & HO). pose proof AN as (Ei & En & El & Er & Hlr). cbn [w_iter w_nodes] in *.
      rewrite En in H. cbn [deref bind] in H. 
      assert (B : r <= length set).
      { pose proof SP as (_ & P2 & _). cbn [w_iter w_nodes] in P2. rewrite Ei in P2. apply lpath_inv_some in P2. destruct P2 as (nd' & ids & En' & (Hok & _) & _).
        rewrite En in En'. injection En' as <-. lia. }
      pose proof (middle_bounds _ _ Hlr) as MB. rewrite go_slice_ret in H by lia. cbn [bind] in H. injection H as <-.
      eexists. split; [reflexivity|]. split.
      * exists pre, suf, m, nd. split; [exact SP|]. split; [exact AN|]. split; [exact HO|reflexivity].
      * unfold wmeasure. cbn [w_pc w_flag w_nodes w_hp]. unfold suffix. cbn [w_nodes w_iter]. lia.
    + (* MCollect *) destruct I as ((F1 & F2) & pre & suf & m & SP & SM & ->). cbn in F1, F2, SM. subst hp cn.
      destruct it as [i|].
      * pose proof SP as (P1 & P2 & P3 & P4). cbn [w_iter w_nodes] in *. apply lpath_inv_some in P2.
        destruct P2 as (nd & ids & En & Hok & Hm & -> & Hp). rewrite En in H. cbn [deref bind] in H. injection H as <-.
        eexists. split; [reflexivity|].
        assert (SP' : split_pos (MkW nds (wn nd) fl (MCollect (slice Ws l0 m ++ [wp nd])) HSelect false) (pre ++ [i]) ids (wr nd)).
        { eapply split_advance; [exact SP|reflexivity|exact En|exact Hok|exact Hm|exact Hp|reflexivity|reflexivity]. }
        pose proof (lpath_len _ _ _ _ _ _ P1) as LL.
        inversion SM as [|? ? Hs SM' Ex]; subst. specialize (Hs _ En). pose proof Hok as (Hlt & _).
        assert (R : wr nd = S (wl nd)) by lia. split.
        -- split; [split; reflexivity|]. exists (pre ++ [i]), ids, (wr nd). split; [exact SP'|]. split; [exact SM'|].
           rewrite R in *. apply slice_snoc; [lia|]. apply (seg_one base N set); assumption.
        -- unfold wmeasure. cbn [w_pc w_flag w_nodes]. rewrite (suffix_eq _ _ _ _ SP'), (suffix_eq _ _ _ _ SP). cbn [length]. lia.
      * injection H as <-. eexists. split; [reflexivity|]. pose proof SP as (P1 & P2 & P3 & P4). cbn [w_iter w_nodes] in *.
        apply lpath_inv_none in P2. destruct P2 as [-> ->]. split.
        -- split; [reflexivity|]. cbn. auto.
        -- unfold wmeasure. cbn [w_pc w_flag w_nodes w_hp hv]. lia.
  - (* helper *)
    destruct hp as [|hl hr|v|]; try discriminate.
    assert (exists i l r nd pre suf m, it = Some i /\ nth_error nds i = Some nd /\ hl = middle l r /\ hr = r /\ l + 2 <= r /\ r <= length set /\
       wr nd = r /\ split_pos (MkW nds it fl pc (HGot hl hr) cn) pre suf m /\
       (pc = MCompute i l r \/ exists nw, pc = MRecv i l r nw)) as K.
    { destruct pc as [| |i l r|i l r|i l r nw|ps|ps]; cbn in I;
        try (destruct I as ((F & _) & _); discriminate); try (destruct I as (_ & _ & [F|F]); discriminate).
      - destruct I as (pre & suf & m & nd & SP & AN & HO). pose proof AN as (Ei & En & El & Er & Hlr). cbn [w_iter w_nodes] in *.
        destruct HO as [_ [HO|HO]]; cbn in HO; [|discriminate]. injection HO as -> ->.
        exists i, l, r, nd, pre, suf, m. repeat split; auto.
        + pose proof SP as (_ & P2 & _). cbn [w_iter w_nodes] in P2. rewrite Ei in P2. apply lpath_inv_some in P2. destruct P2 as (nd' & ids & En' & (Hok & _) & _).
          rewrite En in En'. injection En' as <-. lia.
        + apply SP. + apply SP. + apply SP. + apply SP.
      - destruct I as (pre & suf & m & nd & SP & AN & HO & Hnw). pose proof AN as (Ei & En & El & Er & Hlr). cbn [w_iter w_nodes] in *.
        destruct HO as [_ [HO|HO]]; cbn in HO; [|discriminate]. injection HO as -> ->.
        exists i, l, r, nd, pre, suf, m. repeat split; eauto.
        + pose proof SP as (_ & P2 & _). cbn [w_iter w_nodes] in P2. rewrite Ei in P2. apply lpath_inv_some in P2. destruct P2 as (nd' & ids & En' & (Hok & _) & _).
          rewrite En in En'. injection En' as <-. lia.
        + apply SP. + apply SP. + apply SP. + apply SP. }
    destruct K as (i & l & r & nd & pre & suf & m & -> & En & -> & -> & Hlr & Hr & Hwr & SP & Hpc).
    cbn [deref bind] in H. rewrite En in H. cbn [deref bind] in H. pose proof (middle_bounds _ _ Hlr) as MB.
    rewrite go_slice_ret in H by lia. cbn [bind] in H. injection H as <-. eexists. split; [reflexivity|].
    destruct Hpc as [->|[nw ->]]; cbn in I.
    + destruct I as (pre' & suf' & m' & nd' & SP' & AN & HO). split.
      * exists pre', suf', m', nd'. split; [exact SP'|]. split; [exact AN|]. split; [apply HO|]. right. cbn.
        pose proof AN as (_ & En' & _). cbn in En'. rewrite En in En'. injection En' as ->. reflexivity.
      * unfold wmeasure. cbn [w_pc w_flag w_nodes w_hp hv]. unfold suffix. cbn [w_nodes w_iter]. lia.
    + destruct I as (pre' & suf' & m' & nd' & SP' & AN & HO & Hnw). split.
      * exists pre', suf', m', nd'. split; [exact SP'|]. split; [exact AN|]. split; [split; [apply HO|]|exact Hnw]. right. cbn.
        pose proof AN as (_ & En' & _). cbn in En'. rewrite En in En'. injection En' as ->. reflexivity.
      * unfold wmeasure. cbn [w_pc w_flag w_nodes w_hp hv]. unfold suffix. cbn [w_nodes w_iter]. lia.
  - (* sendChan *)
    destruct pc as [| |i l r|i l r|i l r nw|ps|ps]; try discriminate. destruct hp; try discriminate. injection H as <-.
    eexists. split; [reflexivity|]. destruct I as ((F1 & F2) & pre & suf & m & nd & SP & AN). cbn in F2. subst cn. split.
    + exists pre, suf, m, nd. split; [exact SP|]. split; [exact AN|]. split; [reflexivity|]. left. reflexivity.
    + unfold wmeasure. cbn [w_pc w_flag w_nodes w_hp hv]. unfold suffix. cbn [w_nodes w_iter]. lia.
  - (* iterChan *)
    destruct pc as [| |i l r|i l r|i l r nw|ps|ps]; try discriminate. destruct hp as [| |v|]; try discriminate. injection H as <-.
    destruct I as (pre & suf & m & nd & SP & AN & (F & HO) & ->). cbn in F. subst cn. destruct HO as [HO|HO]; cbn in HO; [discriminate|]. injection HO as ->.
    destruct (split_insert _ _ _ _ _ _ _ _ SP AN) as (ids & -> & LT & K). cbn [w_nodes] in K. cbn [wn].
    eexists. split; [reflexivity|].
    pose proof (fun s' => K s') as K'.
    match goal with |- WInv ?s' /\ _ => specialize (K' s' eq_refl eq_refl) end.
    split.
    + split; [split; reflexivity|]. eexists. eexists. eexists. split; [exact K'|]. cbn. discriminate.
    + unfold wmeasure. cbn [w_pc w_flag w_hp hv]. rewrite (suffix_eq _ _ _ _ K'), (suffix_eq _ _ _ _ SP). cbn [w_nodes].
      rewrite app_length, length_upd. cbn [length].
      destruct SP as (_ & _ & _ & P4). cbn [w_nodes] in P4. rewrite P4 in LT. clear -LT.
      set (n := r0 - l0) in *. set (k := length nds) in *. clearbody n k.
      replace (n - k) with (S (n - (k + 1))) by lia. destruct fl; rewrite Nat.mul_succ_r; lia.
  - (* Done *)
    destruct hp; try discriminate. destruct cn; [|discriminate]. injection H as <-. eexists. split; [reflexivity|].
    destruct pc as [| |i l r|i l r|i l r nw|ps|ps]; cbn in I; try (destruct I as ((_ & F) & _); discriminate).
    + destruct I as (pre & suf & m & nd & SP & AN & (F & _)). discriminate.
    + destruct I as (pre & suf & m & nd & SP & AN & (F & _) & _). discriminate.
    + split; [cbn; tauto|]. unfold wmeasure. cbn [w_pc w_flag w_nodes w_hp hv]. lia.
Qed.
Lemma wprogress : forall s, WInv s -> (wret s = Some (slice Ws l0 r0)) \/ (wret s = None /\ exists c st, wstep N set s c = Some st).
Proof.
  intros s I. destruct s as [nds it fl pc hp cn]. unfold WInv, wret in *. cbn [w_pc] in *.
  destruct pc as [| |i l r|i l r|i l r nw|ps|ps].
  - right. split; [reflexivity|]. exists WMain. cbn. destruct fl; eauto.
  - right. split; [reflexivity|]. exists WMain. cbn. destruct it; eauto.
  - right. split; [reflexivity|]. destruct I as ((F & _) & _). cbn in F. subst hp. exists WSendChan. cbn. eauto.
  - right. split; [reflexivity|]. exists WMain. cbn. eauto.
  - right. split; [reflexivity|]. destruct I as (pre & suf & m & nd & SP & AN & (_ & HO) & _). cbn in HO. destruct HO as [-> | ->].
    + exists WHelper. cbn. eauto.
    + exists WIterChan. cbn. eauto.
  - right. split; [reflexivity|]. exists WMain. cbn. destruct it; eauto.
  - left. destruct I as (-> & _). reflexivity.
Qed.
End Worker.

(** ** the goroutines of ProveMembershipIterParallel *)
Definition cov (l r i : nat) : nat := if (l <=? i) && (i <? r) then 1 else 0.
Lemma cov_split : forall l m r i, l <= m -> m <= r -> cov l r i = cov l m i + cov m r i.
Proof.
  intros l m r i H1 H2. unfold cov.
  destruct (Nat.leb_spec l i), (Nat.ltb_spec i r), (Nat.leb_spec m i), (Nat.ltb_spec i m); cbn; lia.
Qed.
Lemma cov_in : forall l r i, cov l r i = 1 -> l <= i < r.
Proof. intros l r i. unfold cov. destruct (Nat.leb_spec l i), (Nat.ltb_spec i r); cbn; lia. Qed.
Lemma cov_cases : forall l r i, (cov l r i = 1 /\ l <= i < r) \/ (cov l r i = 0 /\ ~ (l <= i < r)).
Proof. intros l r i. unfold cov. destruct (Nat.leb_spec l i), (Nat.ltb_spec i r); cbn; [left|right|right|right]; lia. Qed.

Lemma nsum_cons : forall A (f : A -> nat) a l, nsum f (a :: l) = f a + nsum f l.
Proof. reflexivity. Qed.
Lemma nsum_nil : forall A (f : A -> nat), nsum f [] = 0.
Proof. reflexivity. Qed.

Section Big.
Variable base N : Z.
Variable set : list Z.
Hypothesis HN : (0 < N)%Z.
Hypothesis Hset : Forall (fun x => (0 <= x)%Z) set.
Hypothesis Hbase : (0 <= base < N)%Z.
Variable pow : nat.
Hypothesis Hlen : 2 ^ pow <= length set.
Notation nw := (2 ^ pow).
Notation n := (length set).
Notation ok := (seg_ok base N set).
Notation Ws := (Wits base N set).

Definition iw (g : igo) : nat :=
  match g with
  | IStart _ _ _ d => 2 ^ (pow - d)
  | ISpawn _ _ _ d | IHalf1 _ _ _ d | IHalf2 _ _ _ d => 2 ^ (pow - d - 1)
  | ISend _ => 1
  | IDone => 0
  end.
Definition pn_ok (x : pn) : Prop := ok (np x) (nl x) (nr x).
Definition igo_ok (g : igo) : Prop :=
  match g with
  | IStart b l r d => ok b l r /\ d <= pow /\ 2 ^ (pow - d) <= r - l
  | ISpawn b l r d | IHalf1 b l r d | IHalf2 b l r d => ok b l r /\ d < pow /\ 2 ^ (pow - d) <= r - l
  | ISend x => pn_ok x
  | IDone => True
  end.
Definition icov (i : nat) (g : igo) : nat :=
  match g with
  | IStart b l r d => cov l r i
  | ISpawn b l r d | IHalf2 b l r d => cov l (middle l r) i
  | IHalf1 b l r d => cov (middle l r) r i
  | ISend x => cov (nl x) (nr x) i
  | IDone => 0
  end.
Definition pcov (i : nat) (x : pn) : nat := cov (nl x) (nr x) i.
Definition x_ok (x : X) : Prop :=
  pn_ok (x_nd x) /\ WInv base N set (nl (x_nd x)) (nr (x_nd x)) (x_w x) /\
  match x_pc x with XSend ps => ps = slice Ws (nl (x_nd x)) (nr (x_nd x)) | _ => True end.
Definition xw (x : X) : nat := match x_pc x with XDone => 0 | _ => 1 end.
Definition xcov (i : nat) (x : X) : nat := match x_pc x with XDone => 0 | _ => pcov i (x_nd x) end.
Definition r_ok (x : nat * nat * list Z) : Prop := let '(l, r, ps) := x in l < r <= n /\ ps = slice Ws l r.
Definition rcov (i : nat) (x : nat * nat * list Z) : nat := let '(l, r, _) := x in cov l r i.
Definition mcov (i : nat) (m : ppc) : nat := match m with PGot x _ => pcov i x | _ => 0 end.
Definition pdone (i : nat) (ps : list (option Z)) : nat := match nth_error ps i with Some (Some _) => 1 | _ => 0 end.
Definition kcov (i : nat) (k : kpc) : nat :=
  match k with KNone => 0 | KRange _ ps => pdone i ps | KClose _ | KSend _ | KDone => 1 end.
Definition proofs_ok (ps : list (option Z)) : Prop :=
  length ps = n /\ forall i v, nth_error ps i = Some (Some v) -> nth_error Ws i = Some v.

Definition main_ok (s : B) : Prop :=
  let sum := nsum iw (b_init s) + length (b_chan s) in
  match b_main s with
  | PRange cnt => cnt = length (b_workers s) /\ sum + cnt = nw /\ (b_closed s = true <-> cnt = nw) /\ b_coll s = KNone
  | PGot x cnt => pn_ok x /\ cnt = length (b_workers s) /\ sum + 1 + cnt = nw /\ b_closed s = false /\ b_coll s = KNone
  | PCheck cnt => cnt = length (b_workers s) /\ sum + cnt = nw /\ b_closed s = false /\ b_coll s = KNone
  | PCollector => length (b_workers s) = nw /\ sum = 0 /\ b_coll s = KNone
  | PWait => length (b_workers s) = nw /\ sum = 0 /\ b_coll s <> KNone
  | PRet ps => length (b_workers s) = nw /\ sum = 0 /\ ps = map Some Ws /\ b_coll s = KDone
  end.
Definition coll_ok (s : B) : Prop :=
  let sum := nsum xw (b_workers s) + length (b_recv s) in
  match b_coll s with
  | KNone => b_rclosed s = false /\ sum = length (b_workers s)
  | KRange c ps => b_rclosed s = false /\ b_main s = PWait /\ c < nw /\ sum + c = nw /\ proofs_ok ps
  | KClose ps => b_rclosed s = false /\ b_main s = PWait /\ sum = 0 /\ ps = map Some Ws
  | KSend ps => b_main s = PWait /\ sum = 0 /\ ps = map Some Ws
  | KDone => (exists ps, b_main s = PRet ps) /\ sum = 0
  end.
Definition total (s : B) (i : nat) : nat :=
  nsum (icov i) (b_init s) + nsum (pcov i) (b_chan s) + mcov i (b_main s) + nsum (xcov i) (b_workers s) +
  nsum (rcov i) (b_recv s) + kcov i (b_coll s).
Definition BInv (s : B) : Prop :=
  Forall igo_ok (b_init s) /\ Forall pn_ok (b_chan s) /\ Forall x_ok (b_workers s) /\ Forall r_ok (b_recv s) /\
  main_ok s /\ coll_ok s /\ (forall i, i < n -> 1 <= total s i).

(** *** measure *)
Definition Wb : nat := wbound n.
Fixpoint T (k : nat) : nat := match k with O => Wb + 12 | S k => 2 * T k + 4 end.
Definition im (g : igo) : nat :=
  match g with
  | IStart _ _ _ d => T (pow - d)
  | ISpawn _ _ _ d => T (pow - d - 1) + 2
  | IHalf1 _ _ _ d | IHalf2 _ _ _ d => T (pow - d - 1) + 1
  | ISend _ => Wb + 11
  | IDone => 0
  end.
Definition xm (x : X) : nat :=
  wmeasure (nr (x_nd x) - nl (x_nd x)) (x_w x) + match x_pc x with XRun => 5 | XSend _ => 4 | XDone => 0 end.
Definition mm (m : ppc) : nat :=
  match m with PRange _ => 5 | PGot _ _ => Wb + 12 | PCheck _ => 6 | PCollector => 4 | PWait => 1 | PRet _ => 0 end.
Definition km (k : kpc) : nat := match k with KRange _ _ => 2 | KClose _ => 2 | KSend _ => 1 | _ => 0 end.
Definition bm (s : B) : nat :=
  nsum im (b_init s) + length (b_chan s) * (Wb + 10) + mm (b_main s) + nsum xm (b_workers s) + 3 * length (b_recv s) + km (b_coll s).

Lemma wbound_mono : forall a b, a <= b -> wbound a <= wbound b.
Proof. intros a b H. unfold wbound. apply Nat.add_le_mono_r. apply Nat.add_le_mono; [apply Nat.mul_le_mono; lia|lia]. Qed.

Lemma iw_pos : forall g, g <> IDone -> 0 < iw g.
Proof. intros [] H; cbn [iw]; try congruence; try lia; apply Nat.neq_0_lt_0; apply Nat.pow_nonzero; lia. Qed.
Lemma nsum_all_zero : forall A (f g : A -> nat) l, (forall a, f a = 0 -> g a = 0) -> nsum f l = 0 -> nsum g l = 0.
Proof. intros A f g l H E. apply nsum_zero in E. apply nsum_zero. eapply Forall_impl; [|exact E]. auto. Qed.
Lemma iw_icov : forall i g, iw g = 0 -> icov i g = 0.
Proof.
  intros i g H. destruct g; [| | | | |reflexivity]; exfalso;
    match type of H with iw ?g = 0 => assert (P : 0 < iw g) by (apply iw_pos; discriminate); lia end.
Qed.
Lemma xw_xcov : forall i x, xw x = 0 -> xcov i x = 0.
Proof. intros i [x w []]; cbn; intros H; congruence. Qed.

Lemma half_ok : forall b l r d, ok b l r -> d < pow -> 2 ^ (pow - d) <= r - l ->
  l < middle l r < r /\ 2 ^ (pow - (d + 1)) <= r - middle l r /\ 2 ^ (pow - (d + 1)) <= middle l r - l.
Proof.
  intros b l r d (H1 & _) Hd H. replace (pow - d) with (S (pow - (d + 1))) in H by lia. cbn [Nat.pow] in H.
  assert (P : 0 < 2 ^ (pow - (d + 1))) by (apply Nat.neq_0_lt_0; apply Nat.pow_nonzero; lia).
  set (q := 2 ^ (pow - (d + 1))) in *. clearbody q. split; [apply middle_bounds; lia|]. unfold middle.
  assert (q <= (r - l) / 2) by (apply Nat.div_le_lower_bound; lia).
  assert (2 * ((r - l) / 2) <= r - l) by (apply Nat.mul_div_le; lia). lia.
Qed.

(** *** one worker copied into the result *)
Lemma slice_nth : forall A (l : list A) a b i, a <= i < b -> nth_error (slice l a b) (i - a) = nth_error l i.
Proof.
  intros A l a b i H. unfold slice. assert (E : forall k m (q : list A), k < m -> nth_error (firstn m q) k = nth_error q k).
  { induction k as [|k IH]; intros [|m] [|y q] Hk; cbn; try lia; auto. apply IH. lia. }
  rewrite E by lia. rewrite nth_skipn. f_equal. lia.
Qed.
Lemma nth_firstn_lt : forall A k m (q : list A), k < m -> nth_error (firstn m q) k = nth_error q k.
Proof. induction k as [|k IH]; intros [|m] [|y q] Hk; cbn; try lia; auto. apply IH. lia. Qed.
Lemma copy_into_spec : forall proofs l r, length proofs = n -> l < r <= n ->
  exists p', copy_into proofs l r (slice Ws l r) = Ret p' /\ length p' = n /\
    forall i, nth_error p' i = (if cov l r i =? 1 then nth_error (map Some Ws) i else nth_error proofs i).
Proof.
  intros proofs l r HL H. unfold copy_into. rewrite go_slice_ret by lia. cbn [bind].
  assert (L : length (map Some (slice Ws l r)) = r - l) by (rewrite map_length, slice_length by (rewrite Wits_length; lia); reflexivity).
  rewrite slice_length by lia.
  replace (firstn (r - l) (map Some (slice Ws l r))) with (map Some (slice Ws l r)) by (symmetry; apply firstn_all2; lia). rewrite L.
  eexists. split; [reflexivity|]. split.
  - rewrite !app_length, firstn_length, skipn_length, L. lia.
  - intros i. destruct (cov_cases l r i) as [[-> Hi]|[-> Hi]]; cbn [Nat.eqb].
    + rewrite nth_error_app2 by (rewrite firstn_length; lia). rewrite firstn_length, (Nat.min_l l) by lia.
      rewrite nth_error_app1 by lia. rewrite !nth_error_map. now rewrite slice_nth by lia.
    + destruct (Nat.lt_ge_cases i l).
      * rewrite nth_error_app1 by (rewrite firstn_length; lia). now apply nth_firstn_lt.
      * rewrite nth_error_app2 by (rewrite firstn_length; lia). rewrite firstn_length, (Nat.min_l l) by lia.
        rewrite nth_error_app2 by lia. rewrite nth_skipn. f_equal. lia.
Qed.
Lemma nth_error_ext : forall A (l l' : list A), (forall i, nth_error l i = nth_error l' i) -> l = l'.
Proof.
  induction l as [|x l IH]; intros [|y l'] H; auto; try (specialize (H 0); discriminate).
  pose proof (H 0) as E. injection E as ->. f_equal. apply IH. intros i. exact (H (S i)).
Qed.
Lemma proofs_full : forall ps, proofs_ok ps -> (forall i, i < n -> pdone i ps = 1) -> ps = map Some Ws.
Proof.
  intros ps [HL H] D. apply nth_error_ext. intros i. destruct (Nat.lt_ge_cases i n) as [Hi|Hi].
  - specialize (D i Hi). unfold pdone in D. destruct (nth_error ps i) as [[v|]|] eqn:E; try discriminate.
    apply H in E. rewrite nth_error_map, E. reflexivity.
  - rewrite (proj2 (nth_error_None ps i)) by lia. symmetry. apply nth_error_None. rewrite map_length, Wits_length. lia.
Qed.

(** *** steps *)
Definition good (s : B) (st : outcome B) : Prop := exists s', st = Ret s' /\ BInv s' /\ bm s' < bm s.

Lemma goto_inv : forall s k g g' sp, BInv s -> nth_error (b_init s) k = Some g ->
  igo_ok g' -> Forall igo_ok sp -> iw g' + nsum iw sp = iw g -> (forall i, icov i g <= icov i g' + nsum (icov i) sp) ->
  im g' + nsum im sp < im g ->
  good s (Ret (MkB (upd (b_init s) k g' ++ sp) (b_chan s) (b_closed s) (b_main s) (b_workers s) (b_recv s) (b_rclosed s) (b_coll s))).
Proof.
  intros s k g g' sp (I1 & I2 & I3 & I4 & I5 & I6 & I7) E G1 G2 G3 G4 G5. eexists. split; [reflexivity|].
  pose proof (nsum_upd _ iw _ _ _ g' E) as U1. pose proof (nsum_upd _ im _ _ _ g' E) as U2.
  assert (U : nsum iw (upd (b_init s) k g' ++ sp) = nsum iw (b_init s)) by (rewrite nsum_app; lia).
  split.
  - refine (conj _ (conj _ (conj _ (conj _ (conj _ (conj _ _)))))); cbn [b_init b_chan b_workers b_recv]; auto.
    + apply Forall_app. split; [now apply Forall_upd|assumption].
    + unfold main_ok in *. cbn [b_main b_init b_chan b_workers b_closed b_coll]. rewrite U. exact I5.
    + intros i Hi. specialize (I7 i Hi). unfold total in *. cbn [b_init b_chan b_main b_workers b_recv b_coll]. rewrite nsum_app.
      pose proof (nsum_upd _ (icov i) _ _ _ g' E) as U3. specialize (G4 i). lia.
  - unfold bm. cbn [b_init b_chan b_main b_workers b_recv b_coll]. rewrite nsum_app. lia.
Qed.

Lemma T_ge : forall k, Wb + 12 <= T k.
Proof. induction k; cbn [T]; lia. Qed.

Lemma istep_inv : forall s k g st, BInv s -> nth_error (b_init s) k = Some g -> istep N set nw pow s k g = Some st -> good s st.
Proof.
  intros s k g st I E H. assert (G : igo_ok g) by (eapply Forall_nth; [apply I|exact E]).
  destruct g as [b l r d|b l r d|b l r d|b l r d|x|]; unfold istep in H; [| | | | |discriminate].
  - destruct G as (G1 & G2 & G3). destruct (Nat.ltb_spec pow d); [lia|]. destruct (Nat.eqb_spec d pow) as [->|Hd]; injection H as <-.
    + apply (goto_inv _ _ _ _ _ I E); [exact G1|constructor| | |]; cbn [iw icov im nl nr]; rewrite ?Nat.sub_diag; cbn; [lia|intros; lia|unfold T; lia].
    + assert (L : d < pow) by lia. apply (goto_inv _ _ _ _ _ I E); [exact (conj G1 (conj L G3))|apply Forall_cons; [exact (conj G1 (conj L G3))|apply Forall_nil]| | |];
        cbn [iw icov im nsum fold_right]; destruct (half_ok _ _ _ _ G1 L G3) as (M & _).
      * remember (pow - d - 1) as q eqn:Eq. replace (pow - d) with (S q) by lia. cbn [Nat.pow]. lia.
      * intros i. rewrite (cov_split l (middle l r) r) by lia. lia.
      * remember (pow - d - 1) as q eqn:Eq. replace (pow - d) with (S q) by lia. cbn [T]. lia.
  - destruct G as (G1 & G2 & G3). injection H as <-.
    apply (goto_inv _ _ _ _ _ I E); [exact Logic.I|apply Forall_cons; [exact (conj G1 (conj G2 G3))|apply Forall_nil]| | |]; cbn [iw icov im nsum fold_right]; [lia|intros; lia|lia].
  - destruct G as (G1 & G2 & G3). destruct (half_ok _ _ _ _ G1 G2 G3) as (M & M1 & M2). pose proof G1 as (R & _).
    rewrite go_slice_ret in H by lia. cbn [bind] in H. injection H as <-. destruct (seg_split base N set HN Hset _ _ _ _ G1 M) as [S1 S2].
    apply (goto_inv _ _ _ _ _ I E); [exact Logic.I|apply Forall_cons; [cbn; split; [exact S2|]; lia|apply Forall_nil]| | |]; cbn [iw icov im nsum fold_right];
      replace (pow - (d + 1)) with (pow - d - 1) by lia; [lia|intros; lia|lia].
  - destruct G as (G1 & G2 & G3). destruct (half_ok _ _ _ _ G1 G2 G3) as (M & M1 & M2). pose proof G1 as (R & _).
    rewrite go_slice_ret in H by lia. cbn [bind] in H. injection H as <-. destruct (seg_split base N set HN Hset _ _ _ _ G1 M) as [S1 S2].
    apply (goto_inv _ _ _ _ _ I E); [exact Logic.I|apply Forall_cons; [cbn; split; [exact S1|]; lia|apply Forall_nil]| | |]; cbn [iw icov im nsum fold_right];
      replace (pow - (d + 1)) with (pow - d - 1) by lia; [lia|intros; lia|lia].
  - destruct I as (I1 & I2 & I3 & I4 & I5 & I6 & I7).
    pose proof (nsum_ge _ iw _ _ _ E) as GE. cbn [iw] in GE.
    assert (C : b_closed s = false).
    { unfold main_ok in I5. destruct (b_main s); try (destruct I5 as (? & ? & ?); lia); try tauto.
      destruct I5 as (_ & S1 & S2 & _). destruct (b_closed s); [|reflexivity]. destruct S2 as [S2 _]. specialize (S2 eq_refl). lia. }
    rewrite C in H. assert (L : length (b_chan s) < nw).
    { unfold main_ok in I5. destruct (b_main s); destruct I5 as (? & ? & ?); lia. }
    destruct (Nat.ltb_spec (length (b_chan s)) nw); [|lia]. injection H as <-. eexists. split; [reflexivity|].
    pose proof (nsum_upd _ iw _ _ _ IDone E) as U1. pose proof (nsum_upd _ im _ _ _ IDone E) as U2. cbn [iw im] in U1, U2.
    split.
    + refine (conj _ (conj _ (conj _ (conj _ (conj _ (conj _ _)))))); cbn [b_init b_chan b_workers b_recv]; auto.
      * apply Forall_upd; [assumption|exact Logic.I].
      * apply Forall_app. split; [assumption|constructor; [exact G|constructor]].
      * unfold main_ok in *. cbn [b_main b_init b_chan b_workers b_closed b_coll]. rewrite app_length. cbn [length]. rewrite C in I5.
        replace (nsum iw (upd (b_init s) k IDone) + (length (b_chan s) + 1)) with (nsum iw (b_init s) + length (b_chan s)) by lia. exact I5.
      * intros i Hi. specialize (I7 i Hi). unfold total in *. cbn [b_init b_chan b_main b_workers b_recv b_coll]. rewrite nsum_app. rewrite ?nsum_cons, ?nsum_nil.
        pose proof (nsum_upd _ (icov i) _ _ _ IDone E) as U3. cbn [icov] in U3. fold (pcov i x) in U3. lia.
    + unfold bm. cbn [b_init b_chan b_main b_workers b_recv b_coll]. rewrite app_length. cbn [length]. lia.
Qed.

Ltac parts := refine (conj _ (conj _ (conj _ (conj _ (conj _ (conj _ _)))))); cbn [b_init b_chan b_workers b_recv]; auto;
  try match goal with H : coll_ok _ |- coll_ok _ => exact H end;
  try match goal with H : forall i, _ -> 1 <= total _ i |- forall i, _ -> 1 <= total _ i => exact H end.
Ltac vis := cbn [b_main b_init b_chan b_workers b_closed b_coll b_recv b_rclosed] in *.

Lemma main_inv : forall s st, BInv s -> bstep N set nw pow s CMain = Some st -> good s st.
Proof.
  intros [ini ch cl mn ws rc rcl co] st (I1 & I2 & I3 & I4 & I5 & I6 & I7) H. unfold bstep in H. vis.
  destruct mn as [cnt|x cnt|cnt| | |ps]; try discriminate; unfold main_ok in I5; vis.
  - destruct I5 as (-> & S1 & S2 & ->). destruct ch as [|x rest].
    + destruct cl; [|discriminate]. injection H as <-. eexists. split; [reflexivity|]. destruct S2 as [S2 _]. specialize (S2 eq_refl). cbn [length] in S1. split; [parts|].
      * unfold main_ok. vis. cbn [length]. repeat split; auto; lia.
      * unfold bm. vis. cbn [mm]. lia.
    + injection H as <-. inversion I2 as [|? ? Hx I2']; subst. cbn [length] in S1. eexists. split; [reflexivity|]. split; [parts|].
      * unfold main_ok. vis. split; [assumption|]. split; [reflexivity|]. split; [lia|]. split; [|reflexivity].
        destruct cl; [|reflexivity]. destruct S2 as [S2 _]. specialize (S2 eq_refl). lia.
      * intros i Hi. specialize (I7 i Hi). unfold total in *. vis. rewrite nsum_cons in I7. cbn [mcov] in *. lia.
      * unfold bm. vis. cbn [mm length Nat.mul]. lia.
  - destruct I5 as (Hx & -> & S1 & -> & ->). injection H as <-. eexists. split; [reflexivity|].
    destruct (wstart_inv base N set Hset (nl x) (nr x) (np x) Hx) as [V1 V2].
    assert (V3 : wmeasure (nr x - nl x) (wstart set (np x) (nl x) (nr x)) <= Wb).
    { etransitivity; [exact V2|]. apply wbound_mono. destruct Hx as (? & _). lia. }
    split; [parts|].
    + apply Forall_app. split; [assumption|]. constructor; [|constructor]. split; [exact Hx|]. split; [exact V1|exact Logic.I].
    + unfold main_ok. vis. rewrite app_length. cbn [length]. repeat split; auto; lia.
    + unfold coll_ok in *. vis. rewrite nsum_app, app_length. cbn. split; [tauto|]. lia.
    + intros i Hi. specialize (I7 i Hi). unfold total in *. vis. rewrite nsum_app, nsum_cons, nsum_nil. unfold xcov at 2. cbn [mcov x_pc x_nd] in *. lia.
    + unfold bm. vis. rewrite nsum_app. rewrite nsum_cons, nsum_nil. unfold xm at 2. cbn [mm x_pc x_nd x_w]. lia.
  - destruct I5 as (-> & S1 & -> & ->). destruct (Nat.eqb_spec (length ws) nw) as [Hc|Hc]; injection H as <-; eexists; (split; [reflexivity|]); (split; [parts|]).
    + unfold main_ok. vis. repeat split; auto.
    + unfold bm. vis. cbn [mm]. lia.
    + unfold main_ok. vis. split; [reflexivity|]. split; [lia|]. split; [|reflexivity]. split; [discriminate|lia].
    + unfold bm. vis. cbn [mm]. lia.
  - destruct I5 as (L & S & ->). unfold coll_ok in I6. vis. destruct I6 as (-> & S'). injection H as <-. eexists. split; [reflexivity|]. split; [parts|].
    + unfold main_ok. vis. repeat split; auto. discriminate.
    + unfold coll_ok. vis. split; [reflexivity|]. split; [reflexivity|]. split; [apply Nat.neq_0_lt_0; apply Nat.pow_nonzero; lia|]. split; [lia|].
      split; [apply repeat_length|]. intros i v Hv. apply nth_error_In in Hv. apply repeat_spec in Hv. discriminate.
    + intros i Hi. specialize (I7 i Hi). unfold total in *. vis. cbn [mcov kcov] in *. lia.
    + unfold bm. vis. cbn [mm km]. lia.
Qed.

Lemma main_upd_w : forall ini ch cl mn ws rc rcl co k x ws', main_ok (MkB ini ch cl mn ws rc rcl co) -> ws' = upd ws k x -> forall rc' rcl',
  main_ok (MkB ini ch cl mn ws' rc' rcl' co).
Proof. intros ini ch cl mn ws rc rcl co k x ws' H -> rc' rcl'. unfold main_ok in *. vis. rewrite length_upd. exact H. Qed.

(** a worker changes, without its goroutine leaving the program *)
Lemma worker_inv : forall s k x x', BInv s -> nth_error (b_workers s) k = Some x -> x_ok x' -> xw x' = xw x -> (forall i, xcov i x' = xcov i x) -> xm x' < xm x ->
  good s (Ret (MkB (b_init s) (b_chan s) (b_closed s) (b_main s) (upd (b_workers s) k x') (b_recv s) (b_rclosed s) (b_coll s))).
Proof.
  intros [ini ch cl mn ws rc rcl co] k x x' (I1 & I2 & I3 & I4 & I5 & I6 & I7) E G1 G2 G3 G4. vis. eexists. split; [reflexivity|].
  pose proof (nsum_upd _ xw _ _ _ x' E) as U1. pose proof (nsum_upd _ xm _ _ _ x' E) as U2.
  assert (U : nsum xw (upd ws k x') = nsum xw ws) by lia. split; [parts|].
  - now apply Forall_upd.
  - eapply main_upd_w; eauto.
  - unfold coll_ok in *. vis. rewrite U, length_upd. exact I6.
  - intros i Hi. specialize (I7 i Hi). unfold total in *. vis. pose proof (nsum_upd _ (xcov i) _ _ _ x' E) as U3. rewrite G3 in U3. lia.
  - unfold bm. vis. lia.
Qed.

Lemma bstep_inv : forall s c st, BInv s -> bstep N set nw pow s c = Some st -> good s st.
Proof.
  intros s c st I H. destruct c as [k| |k c|k|k| |].
  - cbn [bstep] in H. destruct (nth_error (b_init s) k) as [g|] eqn:E; [|discriminate]. eapply istep_inv; eauto.
  - now apply main_inv.
  - unfold bstep in H. destruct (nth_error (b_workers s) k) as [x|] eqn:E; [|discriminate].
    destruct (wstep N set (x_w x) c) as [o|] eqn:Ew; [|discriminate].
    assert (G : x_ok x) by (eapply Forall_nth; [apply I|exact E]). destruct G as (G1 & G2 & G3).
    destruct (wstep_inv base N set HN Hset _ _ _ _ _ G2 Ew) as (w & -> & W1 & W2). cbn [bind] in H. injection H as <-.
    apply (worker_inv _ _ _ _ I E); [split; [exact G1|split; [exact W1|exact G3]]|reflexivity|reflexivity|]. unfold xm. cbn [x_w x_pc x_nd]. lia.
  - unfold bstep in H. destruct (nth_error (b_workers s) k) as [[x w []]|] eqn:E; try discriminate.
    destruct (wret w) as [ps|] eqn:Ew; [|discriminate]. injection H as <-.
    assert (G : x_ok (MkX x w XRun)) by (eapply Forall_nth; [apply I|exact E]). destruct G as (G1 & G2 & G3). cbn [x_nd x_w] in *.
    apply (worker_inv _ _ _ _ I E); [split; [exact G1|split; [exact G2|]]|reflexivity|reflexivity|].
    + cbn [x_pc]. destruct (wprogress _ _ _ _ _ _ G2) as [Hr|[Hr _]]; rewrite Ew in Hr; [now injection Hr as ->|discriminate].
    + unfold xm. cbn [x_w x_pc x_nd]. lia.
  - unfold bstep in H. destruct (nth_error (b_workers s) k) as [[x w []]|] eqn:E; try discriminate.
    assert (G : x_ok (MkX x w (XSend proofs))) by (eapply Forall_nth; [apply I|exact E]). destruct G as (G1 & G2 & G3). cbn [x_nd x_w x_pc] in *.
    destruct s as [ini ch cl mn ws rc rcl co]. destruct I as (I1 & I2 & I3 & I4 & I5 & I6 & I7). vis.
    pose proof (nsum_ge _ xw _ _ _ E) as GE. cbn [xw x_pc] in GE.
    assert (LW : length ws <= nw) by (unfold main_ok in I5; vis; destruct mn; destruct I5 as (? & ? & ?); lia).
    assert (R : rcl = false /\ length rc < nw).
    { unfold coll_ok in I6. vis. destruct co.
      - destruct I6 as (? & ?). split; [assumption|lia].
      - destruct I6 as (? & ? & ? & ? & ?). split; [assumption|lia].
      - destruct I6 as (? & ? & ? & ?). lia.
      - destruct I6 as (? & ? & ?). lia.
      - destruct I6 as (? & ?). lia. }
    destruct R as [-> R]. destruct (Nat.ltb_spec (length rc) nw); [|lia]. injection H as <-. eexists. split; [reflexivity|].
    pose proof (nsum_upd _ xw _ _ _ (MkX x w XDone) E) as U1. pose proof (nsum_upd _ xm _ _ _ (MkX x w XDone) E) as U2. unfold xw at 2 4 in U1. unfold xm at 2 4 in U2. cbn [x_pc x_w x_nd] in U1, U2.
    split; [parts|].
    + apply Forall_upd; [assumption|]. split; [exact G1|]. split; [exact G2|exact Logic.I].
    + apply Forall_app. split; [assumption|]. constructor; [|constructor]. split; [apply G1|exact G3].
    + eapply main_upd_w; eauto.
    + unfold coll_ok in *. vis. rewrite app_length, length_upd. cbn [length].
      replace (nsum xw (upd ws k (MkX x w XDone)) + (length rc + 1)) with (nsum xw ws + length rc) by lia. exact I6.
    + intros i Hi. specialize (I7 i Hi). unfold total in *. vis. pose proof (nsum_upd _ (xcov i) _ _ _ (MkX x w XDone) E) as U3.
      unfold xcov at 2 4 in U3. cbn [x_pc x_nd] in U3. rewrite nsum_app. rewrite ?nsum_cons, ?nsum_nil. cbn [rcov]. unfold pcov in U3 at 1. lia.
    + unfold bm. vis. rewrite app_length. cbn [length]. lia.
  - destruct s as [ini ch cl mn ws rc rcl co]. destruct I as (I1 & I2 & I3 & I4 & I5 & I6 & I7). unfold bstep in H. vis. unfold coll_ok in I6. vis.
    destruct co as [|cnt ps|ps|ps|]; try discriminate.
    + destruct I6 as (-> & -> & C1 & C2 & [P1 P2]). destruct rc as [|[[l r] q] rest]; [discriminate|].
      inversion I4 as [|? ? RO I4']; subst. unfold r_ok in RO. destruct RO as [R1 ->]. destruct (copy_into_spec ps l r P1 R1) as (p' & Ec & L' & Np). rewrite Ec in H. cbn [bind] in H. injection H as <-.
      cbn [length] in C2. unfold main_ok in I5. vis. destruct I5 as (M1 & M2 & M3). 
      assert (Q : proofs_ok p').
      { split; [exact L'|]. intros i v Hv. rewrite Np in Hv. destruct (cov l r i =? 1).
        - rewrite nth_error_map in Hv. destruct (nth_error Ws i); cbn in *; congruence.
        - now apply P2. }
      assert (TT : forall i, i < n -> 1 <= nsum (xcov i) ws + nsum (rcov i) rest + pdone i p').
      { intros i Hi. specialize (I7 i Hi). unfold total in I7. vis. rewrite nsum_cons in I7. cbn [mcov kcov rcov] in I7.
        rewrite (nsum_all_zero _ iw (icov i)) in I7 by (try apply iw_icov; lia).
        assert (ch = []) as -> by (destruct ch; [reflexivity|cbn in M2; lia]). rewrite nsum_nil in I7.
        assert (D : cov l r i + pdone i ps <= 1 -> cov l r i + pdone i ps = pdone i p' \/ True) by auto.
        unfold pdone in *. rewrite Np. destruct (cov_cases l r i) as [[Ec' Hc]|[Ec' Hc]]; rewrite Ec' in *; cbn [Nat.eqb].
        - rewrite nth_error_map. destruct (nth_error Ws i) eqn:En; cbn [option_map]; [lia|]. apply nth_error_None in En. rewrite Wits_length in En. lia.
        - lia. }
      eexists. split; [reflexivity|].
      destruct (Nat.eqb_spec (cnt + 1) nw) as [Hc|Hc].
      * split; [parts|].
        -- unfold main_ok. vis. repeat split; auto. discriminate.
        -- unfold coll_ok. vis. repeat split; try lia. apply proofs_full; [exact Q|]. intros i Hi. specialize (TT i Hi).
           rewrite (nsum_all_zero _ xw (xcov i)) in TT by (try apply xw_xcov; lia).
           assert (rest = []) as -> by (destruct rest; [reflexivity|cbn in C2; lia]). rewrite ?nsum_cons, ?nsum_nil in TT.
           unfold pdone in *. destruct (nth_error p' i) as [[?|]|]; lia.
        -- intros i Hi. unfold total. vis. cbn [kcov]. lia.
        -- unfold bm. vis. cbn [length km]. lia.
      * split; [parts|].
        -- unfold main_ok. vis. repeat split; auto. discriminate.
        -- unfold coll_ok. vis. repeat split; auto; try lia; apply Q.
        -- intros i Hi. specialize (TT i Hi). unfold total. vis. cbn [kcov]. lia.
        -- unfold bm. vis. cbn [length km]. lia.
    + destruct I6 as (-> & -> & C1 & ->). injection H as <-. eexists. split; [reflexivity|]. split; [parts|].
      * unfold main_ok in *. vis. destruct I5 as (? & ? & ?). repeat split; auto. discriminate.
      * unfold coll_ok. vis. repeat split; auto.
      * unfold bm. vis. cbn [km]. lia.
  - destruct s as [ini ch cl mn ws rc rcl co]. destruct I as (I1 & I2 & I3 & I4 & I5 & I6 & I7). unfold bstep in H. vis. unfold coll_ok in I6. vis.
    destruct mn; try discriminate. destruct co; try discriminate. injection H as <-. destruct I6 as (_ & C1 & ->). eexists. split; [reflexivity|].
    unfold main_ok in I5. vis. destruct I5 as (M1 & M2 & M3). split; [parts|].
    + unfold main_ok. vis. repeat split; auto.
    + unfold coll_ok. vis. split; [eauto|assumption].
    + unfold bm. vis. cbn [km mm]. lia.
Qed.

Lemma bprogress : forall s, BInv s -> (exists v, bret s = Some v /\ v = map Some Ws) \/ (bret s = None /\ exists c st, bstep N set nw pow s c = Some st).
Proof.
  intros [ini ch cl mn ws rc rcl co] (I1 & I2 & I3 & I4 & I5 & I6 & I7). unfold main_ok in I5. unfold bret. vis.
  destruct mn as [cnt|x cnt|cnt| | |ps].
  - right. split; [reflexivity|]. destruct I5 as (-> & S1 & S2 & ->). destruct ch as [|x rest]; [|exists CMain; cbn; eauto].
    destruct cl; [exists CMain; cbn; eauto|].
    assert (LT : 0 < nsum iw ini). { cbn [length] in S1. destruct (Nat.eq_dec (length ws) nw) as [Ec|Ec]; [apply S2 in Ec; discriminate|]. lia. }
    apply nsum_pos in LT. destruct LT as (k & g & Ek & Hg). exists (CInit k). cbn [bstep b_init]. rewrite Ek.
    assert (G : igo_ok g) by (eapply Forall_nth; [exact I1|exact Ek]).
    destruct g as [b l r d|b l r d|b l r d|b l r d|x|]; unfold istep; vis; eauto.
    + destruct (pow <? d); [eauto|]. destruct (d =? pow); eauto.
    + cbn [length]. destruct (Nat.ltb_spec 0 nw) as [Hp|Hp]; [eauto|]. exfalso. cbn [length] in S1. assert (nw <> 0) by (apply Nat.pow_nonzero; lia). lia.
    + cbn in Hg. lia.
  - right. split; [reflexivity|]. exists CMain. cbn. eauto.
  - right. split; [reflexivity|]. exists CMain. unfold bstep. vis. destruct (cnt =? nw); [|eauto]. destruct cl; eauto.
  - right. split; [reflexivity|]. exists CMain. cbn. eauto.
  - right. split; [reflexivity|]. unfold coll_ok in I6. vis. destruct I5 as (M1 & M2 & M3). destruct co as [|cnt ps|ps|ps|]; [congruence| | | |].
    + destruct I6 as (-> & _ & C1 & C2 & C3). destruct rc as [|[[l r] q] rest]; [|exists CColl; cbn; eauto].
      cbn [length] in C2. assert (LT : 0 < nsum xw ws) by lia. apply nsum_pos in LT. destruct LT as (k & x & Ek & Hx).
      assert (G : x_ok x) by (eapply Forall_nth; [exact I3|exact Ek]). destruct G as (G1 & G2 & G3).
      destruct x as [x w pc]. cbn [x_nd x_w x_pc] in *. destruct pc as [|q|].
      * destruct (wprogress _ _ _ _ _ _ G2) as [Hr|(Hr & c & st & Hc)].
        -- exists (CXRet k). unfold bstep. vis. rewrite Ek, Hr. eauto.
        -- exists (CWork k c). unfold bstep. vis. rewrite Ek. cbn [x_w]. rewrite Hc. eauto.
      * exists (CXSend k). unfold bstep. vis. rewrite Ek. cbn [length]. destruct (Nat.ltb_spec 0 nw); [eauto|lia].
      * cbn in Hx. lia.
    + exists CColl. unfold bstep. vis. destruct rcl; eauto.
    + exists CProof. cbn. eauto.
    + destruct I6 as [[ps E] _]. discriminate.
  - left. exists ps. split; [reflexivity|]. tauto.
Qed.

Lemma bstart_inv : BInv (bstart set base).
Proof.
  assert (P : nw <> 0) by (apply Nat.pow_nonzero; lia).
  assert (Hne : set <> []) by (intros E; rewrite E in Hlen; cbn in Hlen; lia).
  unfold bstart. unfold BInv. parts.
  - constructor; [|constructor]. cbn [igo_ok]. rewrite !Nat.sub_0_r. split; [now apply seg_all|]. split; [lia|exact Hlen].
  - unfold main_ok. vis. rewrite ?nsum_cons, ?nsum_nil. cbn [iw length]. rewrite Nat.sub_0_r. repeat split; auto; try lia; try discriminate.
  - unfold coll_ok. vis. cbn. auto.
  - intros i Hi. unfold total. vis. rewrite ?nsum_cons, ?nsum_nil. cbn [icov mcov kcov]. unfold cov. destruct (Nat.ltb_spec i n); [cbn; lia|lia].
Qed.

Theorem big_ends : always_ends (bstep N set nw pow) bret (fun _ => false) (bstart set base) (fun v => v = map Some Ws).
Proof.
  apply (always_ends_inv _ _ _ BInv bm).
  - apply bstart_inv.
  - intros s c st I H. exact (bstep_inv s c st I H).
  - intros s I. destruct (bprogress s I) as [H|(H & c & st & Hc)]; [left; exact H|right]. split; [exact H|]. exists c, st. auto.
Qed.
End Big.
