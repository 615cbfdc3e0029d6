(** Every run of RaceModel.v is a run of the coarser machine of ParIterModel.v. *)
From Coq Require Import ZArith Bool Lia List Permutation.
From Verif Require Import GoBig GoBigFacts Spec AccModel AccFacts IterModel ListUpd ParIterModel ParIterProofs RaceModel RaceProofs.
Import ListNotations.
Local Open Scope nat_scope.

Definition value (m : mem) (a : addr) : Z := nth a m 0%Z.
Definition absn (m : mem) (nd : rnode) : wnode := WNode (n_left nd) (n_right nd) (value m (n_proof nd)) (n_next nd).
Lemma load_value : forall m a, a < length m -> load m a = Ret (value m a).
Proof. intros m a H. unfold load, value. rewrite (nth_error_nth' m 0%Z H). reflexivity. Qed.
Lemma value_store_eq : forall m a v, a < length m -> value (store m a v) a = v.
Proof.
  intros m a v H. unfold value, store. assert (L : length (firstn a m) = a) by (rewrite firstn_length; lia).
  rewrite app_nth2 by lia. rewrite L, Nat.sub_diag. reflexivity.
Qed.
Lemma value_store_neq : forall m a b v, a < length m -> b <> a -> value (store m a v) b = value m b.
Proof.
  intros m a b v H Hb. unfold value, store. assert (L : length (firstn a m) = a) by (rewrite firstn_length; lia).
  assert (E : m = firstn a m ++ nth a m 0%Z :: skipn (S a) m).
  { clear -H. revert m H. induction a; intros [|x m] H; cbn in *; try lia; [reflexivity|]. f_equal. apply IHa. lia. }
  destruct (Nat.lt_ge_cases b a).
  - rewrite app_nth1 by lia. rewrite E at 2. rewrite app_nth1 by lia. reflexivity.
  - rewrite app_nth2 by lia. rewrite E at 3. rewrite (app_nth2 (firstn a m)) by lia. rewrite L. destruct (b - a) eqn:Q; [lia|reflexivity].
Qed.
Lemma value_alloc : forall m b v, b < length m -> value (m ++ [v]) b = value m b.
Proof. intros m b v H. unfold value. now rewrite app_nth1. Qed.

Section Sim.
Variable set : list addr.
Variable Np base : addr.
Variable N : Z.
Variable vals : list Z.
Notation inputs := (base :: Np :: set).
(** the arguments have the values N and vals *)
Definition args (m : mem) : Prop := value m Np = N /\ map (value m) set = vals /\ forall a, In a inputs -> a < length m.

Definition elems (part : list nat) : list Z := map (fun k => nth k vals 0%Z) part.
(** how far accumulateNew has come on the way from v through part *)
Definition acc_ok (m : mem) (v : Z) (part : list nat) (a : apc) : Prop :=
  Forall (fun k => k < length set) part /\
  match a with
  | ANew g p | ASet _ g p => p = part /\ value m g = v
  | ASlot c p => exists q, part = q ++ p /\ value m c = accumulate_val v N (elems q)
  | AExp c e p => exists q k, part = q ++ k :: p /\ nth_error set k = Some e /\ value m c = accumulate_val v N (elems q)
  end.
Definition range (l r : nat) : list nat := seq l (r - l).

Definition plain (s : R) (w : W) : Prop := w_nodes w = map (absn (r_mem s)) (r_nodes s) /\ w_iter w = r_iter s.
Definition here (s : R) (i : nat) (nd : rnode) : Prop := r_iter s = Some i /\ nth_error (r_nodes s) i = Some nd.
Definition msim (s : R) (w : W) : Prop :=
  let m := r_mem s in
  match r_pc s with
  | M413 => plain s w /\ w_flag w = r_flag s /\ w_pc w = MOuter
  | M414 => plain s w /\ w_flag w = true /\ w_pc w = MOuter
  | M415 => plain s w /\ w_flag w = true /\ w_pc w = MOuter /\ r_flag s = false
  | M427 => plain s w /\ w_flag w = false /\ w_pc w = MOuter /\ r_flag s = false
  | M416 => plain s w /\ w_flag w = r_flag s /\ w_pc w = MInner
  | M417a => plain s w /\ w_flag w = r_flag s /\ w_pc w = MInner /\ exists i, r_iter s = Some i
  | M417b i => plain s w /\ w_flag w = r_flag s /\ w_pc w = MInner /\ r_iter s = Some i
  | M417c r => plain s w /\ w_flag w = r_flag s /\ w_pc w = MInner /\ exists i nd, here s i nd /\ n_right nd = r
  | M417d r i => plain s w /\ w_flag w = r_flag s /\ w_pc w = MInner /\ exists nd, here s i nd /\ n_right nd = r
  | M418a => plain s w /\ w_flag w = r_flag s /\ w_pc w = MInner /\ exists i nd, here s i nd /\ (n_right nd - n_left nd <=? 1) = true
  | M418b i => plain s w /\ w_flag w = r_flag s /\ w_pc w = MInner /\ exists nd, here s i nd /\ (n_right nd - n_left nd <=? 1) = true
  | M418c nx => plain s w /\ w_flag w = r_flag s /\ w_pc w = MInner /\ exists i nd, here s i nd /\ (n_right nd - n_left nd <=? 1) = true /\ n_next nd = nx
  | M421 => plain s w /\ w_flag w = r_flag s /\ exists i nd, here s i nd /\ w_pc w = MSend i (n_left nd) (n_right nd)
  | M461 i => plain s w /\ w_flag w = r_flag s /\ exists nd, here s i nd /\ w_pc w = MSend i (n_left nd) (n_right nd)
  | M462 i l => plain s w /\ w_flag w = r_flag s /\ exists nd, here s i nd /\ n_left nd = l /\ w_pc w = MSend i l (n_right nd)
  | M464 i l r => plain s w /\ w_flag w = r_flag s /\ exists nd, here s i nd /\ n_left nd = l /\ n_right nd = r /\ w_pc w = MSend i l r
  | M468 i l r => plain s w /\ w_flag w = r_flag s /\ w_pc w = MCompute i l r /\ exists nd, here s i nd /\ n_left nd = l /\ n_right nd = r
  | M468acc i l r a => plain s w /\ w_flag w = r_flag s /\ w_pc w = MCompute i l r /\ exists nd, here s i nd /\ n_left nd = l /\ n_right nd = r /\
      l <= middle l r <= length set /\ acc_ok m (value m (n_proof nd)) (range l (middle l r)) a
  | M469 i l r c => plain s w /\ w_flag w = r_flag s /\ w_pc w = MCompute i l r /\ exists nd, here s i nd /\ n_left nd = l /\ n_right nd = r /\
      l <= middle l r <= length set /\ value m c = accumulate_val (value m (n_proof nd)) N (elems (range l (middle l r)))
  | M465 i l r c nx => plain s w /\ w_flag w = r_flag s /\ w_pc w = MCompute i l r /\ exists nd, here s i nd /\ n_left nd = l /\ n_right nd = r /\
      l <= middle l r <= length set /\ value m c = accumulate_val (value m (n_proof nd)) N (elems (range l (middle l r))) /\ nx = n_next nd
  | M471 i l r n | M472 i l r n => w_iter w = r_iter s /\ w_flag w = r_flag s /\ r_iter s = Some i /\ exists old nd nw,
      r_nodes s = old ++ [nw] /\ n = length old /\ nth_error old i = Some nd /\ n_left nd = l /\ n_right nd = r /\
      w_nodes w = map (absn m) old /\ w_pc w = MRecv i l r (absn m nw)
  | M473 i l r n => w_iter w = r_iter s /\ w_flag w = r_flag s /\ r_iter s = Some i /\ exists old nd nw,
      r_nodes s = upd old i (set_right nd (middle l r)) ++ [nw] /\ n = length old /\ nth_error old i = Some nd /\ n_left nd = l /\ n_right nd = r /\
      w_nodes w = map (absn m) old /\ w_pc w = MRecv i l r (absn m nw)
  | M473w i l r n v => w_flag w = true /\ w_pc w = MInner /\ exists old nd nw,
      r_nodes s = upd old i nd ++ [nw] /\ n = length old /\ i < length old /\ n_left nd = l /\ n_right nd = middle l r /\
      w_nodes w = map (absn m) (upd old i (RNode l (middle l r) v (Some n)) ++ [nw]) /\ w_iter w = n_next nw
  | M474 i l r n => w_flag w = true /\ w_pc w = MInner /\ exists old nd nw,
      r_nodes s = upd old i nd ++ [nw] /\ n = length old /\ i < length old /\
      w_nodes w = map (absn m) (upd old i (set_next nd (Some n)) ++ [nw]) /\ w_iter w = n_next nw
  | M475 n => w_flag w = true /\ w_pc w = MInner /\ w_nodes w = map (absn m) (r_nodes s) /\ exists nw, nth_error (r_nodes s) n = Some nw /\ w_iter w = n_next nw
  | M421w nx => w_flag w = true /\ w_pc w = MInner /\ w_nodes w = map (absn m) (r_nodes s) /\ w_iter w = nx
  | M422 => plain s w /\ w_flag w = true /\ w_pc w = MInner
  | M427t ps => plain s w /\ w_flag w = r_flag s /\ w_pc w = MCollect (map (value m) ps)
  | M428a ps => plain s w /\ w_flag w = r_flag s /\ w_pc w = MCollect (map (value m) ps) /\ exists i, r_iter s = Some i
  | M428b ps i => plain s w /\ w_flag w = r_flag s /\ w_pc w = MCollect (map (value m) ps) /\ r_iter s = Some i
  | M427a ps => plain s w /\ w_flag w = r_flag s /\ exists qs i nd, here s i nd /\ ps = qs ++ [n_proof nd] /\ w_pc w = MCollect (map (value m) qs)
  | M427b ps i => plain s w /\ w_flag w = r_flag s /\ exists qs nd, here s i nd /\ ps = qs ++ [n_proof nd] /\ w_pc w = MCollect (map (value m) qs)
  | M427c ps nx => plain s w /\ w_flag w = r_flag s /\ exists qs i nd, here s i nd /\ ps = qs ++ [n_proof nd] /\ nx = n_next nd /\ w_pc w = MCollect (map (value m) qs)
  | M430 ps => plain s w /\ w_flag w = r_flag s /\ w_pc w = MCollect (map (value m) ps) /\ r_iter s = None
  | MEnd ps => w_pc w = MRet (map (value m) ps)
  end.
Definition hsim (s : R) (w : W) : Prop :=
  let m := r_mem s in
  match r_hp s with
  | H405 => w_hp w = HSelect
  | H407a l r => w_hp w = HGot l r
  | H407b l r i => w_hp w = HGot l r /\ r_iter s = Some i
  | H407acc l r a => w_hp w = HGot l r /\ l <= r <= length set /\ exists i it, w_iter w = Some i /\ nth_error (w_nodes w) i = Some it /\ acc_ok m (wp it) (range l r) a
  | H407s c => w_hp w = HSend (value m c)
  | H409 => w_hp w = HDone
  end.
Definition got (p : mpc) : list addr :=
  match p with M427t ps | M428a ps | M428b ps _ | M427a ps | M427b ps _ | M427c ps _ | M430 ps | MEnd ps => ps | _ => [] end.
(** all numbers the two goroutines still use *)
Definition known (s : R) : list addr := proofs_of s ++ got (r_pc s) ++ mheld (r_pc s) ++ hheld (r_hp s).
Record Sim (s : R) (w : W) : Prop := {
  sm_main : msim s w;
  sm_help : hsim s w;
  sm_canc : w_cancelled w = r_cancelled s;
  sm_args : args (r_mem s);
  sm_known : incl (known s) (base :: r_own s)
}.

Ltac recs := cbn [r_mem r_own r_nodes r_iter r_flag r_pc r_hp r_cancelled goto put_iter put_flag put_nodes put_mem hgoto hput_mem w_nodes w_iter w_flag w_pc w_hp w_cancelled] in *.

(** ** the relation survives changes to other numbers *)
Lemma map_upd : forall A B (f : A -> B) l i x, map f (upd l i x) = upd (map f l) i (f x).
Proof. induction l as [|y l IH]; intros [|i] x; cbn; [reflexivity|reflexivity|reflexivity|]. now rewrite IH. Qed.
Lemma upd_upd : forall A (l : list A) i x y, upd (upd l i x) i y = upd l i y.
Proof. induction l as [|z l IH]; intros [|i] x y; cbn; [reflexivity|reflexivity|reflexivity|]. now rewrite IH. Qed.
Lemma upd_id : forall A (l : list A) i x, nth_error l i = Some x -> upd l i x = l.
Proof. induction l as [|y l IH]; intros [|i] x H; cbn in *; [discriminate|discriminate|congruence|]. now rewrite IH. Qed.
Lemma upd_ext : forall A B (f g : A -> B) l i x y, map f (upd l i y) = map g (upd l i y) -> f x = g x -> map f (upd l i x) = map g (upd l i x).
Proof.
  intros A B f g l i x y H E. rewrite !map_upd in *.
  rewrite <- (upd_upd _ (map f l) i (f y) (f x)), H, upd_upd, E. reflexivity.
Qed.
Lemma absn_ext : forall m m' ns, (forall a, In a (map n_proof ns) -> value m' a = value m a) -> map (absn m') ns = map (absn m) ns.
Proof. intros m m' ns H. apply map_ext_in. intros nd A. unfold absn. rewrite H; [reflexivity|]. now apply in_map. Qed.
Lemma acc_ok_ext : forall m m' v part a, (forall x, In x (aheld a ++ awork a) -> value m' x = value m x) -> acc_ok m v part a -> acc_ok m' v part a.
Proof.
  intros m m' v part a H (F & K). split; [exact F|].
  destruct a as [g p|c g p|c p|c e p]; cbn [aheld awork app] in H.
  - destruct K as (-> & <-). split; [reflexivity|]. apply H. now left.
  - destruct K as (-> & <-). split; [reflexivity|]. apply H. now left.
  - destruct K as (q & E & K). exists q. split; [exact E|]. rewrite H by now left. exact K.
  - destruct K as (q & k & E & K1 & K). exists q, k. split; [exact E|]. split; [exact K1|]. rewrite H by now left. exact K.
Qed.
Definition with_mem (s : R) (m : mem) (own : list addr) : R := MkR m own (r_nodes s) (r_iter s) (r_flag s) (r_pc s) (r_hp s) (r_cancelled s).

Lemma msim_mem : forall s w m' own', msim s w ->
  (forall a, In a (proofs_of s ++ got (r_pc s) ++ mheld (r_pc s) ++ mwork (r_pc s)) -> value m' a = value (r_mem s) a) -> msim (with_mem s m' own') w.
Proof.
  intros [m own ns it fl pc hp cn] w m' own' H V. unfold with_mem, msim, plain, here, proofs_of in *. recs.
  assert (VP : map (absn m') ns = map (absn m) ns) by (apply absn_ext; intros a A; apply V; rewrite in_app_iff; now left).
  assert (VN : forall i nd, nth_error ns i = Some nd -> value m' (n_proof nd) = value m (n_proof nd)).
  { intros i nd E. apply V. rewrite in_app_iff. left. apply in_map. eapply nth_error_In; eauto. }
  assert (VG : map (value m') (got pc) = map (value m) (got pc)).
  { apply map_ext_in. intros a A. apply V. rewrite !in_app_iff. tauto. }
  assert (VH : forall a, In a (mheld pc ++ mwork pc) -> value m' a = value m a) by (intros a A; apply V; rewrite !in_app_iff in *; tauto).
  destruct pc; cbn [got mheld mwork app] in *; try rewrite VP; try exact H; try (rewrite VG; exact H).
  - (* acc *) destruct H as (H1 & H2 & H3 & nd & H4 & H5 & H6 & H7 & H8). split; [exact H1|]. split; [exact H2|]. split; [exact H3|].
    exists nd. split; [exact H4|]. split; [exact H5|]. split; [exact H6|]. split; [exact H7|]. rewrite (VN i nd (proj2 H4)). eapply acc_ok_ext; [exact VH|exact H8].
  - destruct H as (H1 & H2 & H3 & nd & H4 & H5 & H6 & H7 & H8). split; [exact H1|]. split; [exact H2|]. split; [exact H3|].
    exists nd. rewrite (VN i nd (proj2 H4)), VH by now left. auto 8.
  - destruct H as (H1 & H2 & H3 & nd & H4 & H5 & H6 & H7 & H8). split; [exact H1|]. split; [exact H2|]. split; [exact H3|].
    exists nd. rewrite (VN i nd (proj2 H4)), VH by now left. auto 8.
  - destruct H as (H1 & H2 & H3 & old & nd & nw & -> & H5 & H6 & H7 & H8 & H9 & H10). split; [exact H1|]. split; [exact H2|]. split; [exact H3|].
    rewrite !map_app in VP. apply app_inj_tail in VP. destruct VP as [VP1 VP2]. exists old, nd, nw. rewrite VP1, VP2. auto 10.
  - destruct H as (H1 & H2 & H3 & old & nd & nw & -> & H5 & H6 & H7 & H8 & H9 & H10). split; [exact H1|]. split; [exact H2|]. split; [exact H3|].
    rewrite !map_app in VP. apply app_inj_tail in VP. destruct VP as [VP1 VP2]. exists old, nd, nw. rewrite VP1, VP2. auto 10.
  - destruct H as (H1 & H2 & H3 & old & nd & nw & -> & H5 & H6 & H7 & H8 & H9 & H10). split; [exact H1|]. split; [exact H2|]. split; [exact H3|].
    rewrite !map_app in VP. apply app_inj_tail in VP. destruct VP as [VP1 VP2]. exists old, nd, nw. cbn [map] in VP2. rewrite VP2.
    assert (Q : map (absn m') old = map (absn m) old).
    { rewrite <- (upd_id _ old i nd H6). eapply upd_ext; [exact VP1|]. unfold absn.
      assert (X : value m' (n_proof nd) = value m (n_proof nd)); [|now rewrite X].
      apply (VN i (set_right nd (middle l r))). rewrite nth_error_app1 by (rewrite length_upd; eapply nth_some_lt; eauto).
      apply nth_upd_eq. eapply nth_some_lt; eauto. }
    rewrite Q. auto 10.
  - destruct H as (H2 & H3 & old & nd & nw & -> & H5 & H6 & H7 & H8 & H9 & H10). split; [exact H2|]. split; [exact H3|].
    rewrite !map_app in VP. apply app_inj_tail in VP. destruct VP as [VP1 VP2]. exists old, nd, nw. repeat (split; [assumption || reflexivity|]). split; [|assumption].
    rewrite H9. rewrite !map_app. cbn [map]. rewrite VP2. f_equal. symmetry. eapply upd_ext; [exact VP1|]. unfold absn. cbn [n_left n_right n_proof n_next]. rewrite VH by now left. reflexivity.
  - destruct H as (H2 & H3 & old & nd & nw & -> & H5 & H6 & H9 & H10). split; [exact H2|]. split; [exact H3|].
    rewrite !map_app in VP. apply app_inj_tail in VP. destruct VP as [VP1 VP2]. exists old, nd, nw. repeat (split; [assumption || reflexivity|]). split; [|assumption].
    rewrite H9. rewrite !map_app. cbn [map]. rewrite VP2. f_equal. symmetry. eapply upd_ext; [exact VP1|]. unfold absn, set_next. cbn [n_left n_right n_proof n_next].
    rewrite (VN i nd); [reflexivity|]. rewrite nth_error_app1 by (rewrite length_upd; assumption). now apply nth_upd_eq.
  - destruct H as (H1 & H2 & qs & i & nd & H3 & -> & H4). rewrite map_app in VG. cbn [map] in VG. rewrite map_app in VG. apply app_inj_tail in VG. destruct VG as [VG _].
    split; [exact H1|]. split; [exact H2|]. exists qs, i, nd. rewrite VG. auto.
  - destruct H as (H1 & H2 & qs & nd & H3 & -> & H4). rewrite map_app in VG. cbn [map] in VG. rewrite map_app in VG. apply app_inj_tail in VG. destruct VG as [VG _].
    split; [exact H1|]. split; [exact H2|]. exists qs, nd. rewrite VG. auto.
  - destruct H as (H1 & H2 & qs & i & nd & H3 & -> & H4 & H5). rewrite map_app in VG. cbn [map] in VG. rewrite map_app in VG. apply app_inj_tail in VG. destruct VG as [VG _].
    split; [exact H1|]. split; [exact H2|]. exists qs, i, nd. rewrite VG. auto.
Qed.
Lemma hsim_mem : forall s w m' own', hsim s w ->
  (forall a, In a (hheld (r_hp s) ++ hwork (r_hp s)) -> value m' a = value (r_mem s) a) -> hsim (with_mem s m' own') w.
Proof.
  intros [m own ns it fl pc hp cn] w m' own' H V. unfold with_mem, hsim in *. recs. destruct hp; cbn [hheld hwork app] in *; try exact H.
  - destruct H as (H1 & H2 & i & nd & H3 & H4 & H5). split; [exact H1|]. split; [exact H2|]. exists i, nd. split; [exact H3|]. split; [exact H4|]. eapply acc_ok_ext; eauto.
  - rewrite V by now left. exact H.
Qed.

(** ** the steps *)
Definition live (w : W) : Prop := forall c st, wstep N vals w c = Some st -> exists w', st = Ret w'.
(** how many steps a goroutine can do, at most, until the coarser machine moves *)
Definition arank (a : apc) : nat :=
  match a with ANew _ p => 2 * length p + 2 | ASet _ _ p => 2 * length p + 1 | ASlot _ p => 2 * length p | AExp _ _ p => 2 * length p + 1 end.
Definition mrank (p : mpc) : nat :=
  match p with
  | M413 => 3 | M414 => 2 | M415 => 1 | M427 => 1
  | M473w _ _ _ _ _ => 13 | M474 _ _ _ _ => 12 | M475 _ => 11 | M421w _ => 10 | M422 => 9
  | M416 => 8 | M417a => 7 | M417b _ => 6 | M417c _ => 5 | M417d _ _ => 4 | M418a => 3 | M418b _ => 2 | M418c _ => 1
  | M421 => 4 | M461 _ => 3 | M462 _ _ => 2 | M464 _ _ _ => 1
  | M468 _ _ _ => 2 * length set + 6 | M468acc _ _ _ a => arank a + 3 | M469 _ _ _ _ => 2 | M465 _ _ _ _ _ => 1
  | M471 _ _ _ _ => 3 | M472 _ _ _ _ => 2 | M473 _ _ _ _ => 1
  | M427t _ => 7 | M428a _ => 6 | M428b _ _ => 5 | M427a _ => 4 | M427b _ _ => 3 | M427c _ _ => 2 | M430 _ => 1 | MEnd _ => 0
  end.
Definition hrank (h : hpc') : nat :=
  match h with H407a _ _ => 2 * length set + 6 | H407b _ _ _ => 2 * length set + 5 | H407acc _ _ a => arank a + 2 | _ => 0 end.
Definition rank (s : R) : nat := mrank (r_pc s) + hrank (r_hp s).
Definition follows (s s' : R) (w w' : W) : Prop := (w' = w /\ rank s' < rank s) \/ exists c, wstep N vals w c = Some (Ret w').
Lemma hsim_keep : forall s s' w w', hsim s w -> r_hp s' = r_hp s -> r_mem s' = r_mem s -> w_hp w' = w_hp w ->
  (idle (r_hp s) \/ (r_iter s' = r_iter s /\ w_iter w' = w_iter w /\ w_nodes w' = w_nodes w)) -> hsim s' w'.
Proof.
  intros s s' w w' H E1 E2 E3 D. unfold hsim in *. rewrite E1, E2, E3. destruct D as [[D|D]|(D1 & D2 & D3)].
  - rewrite D in *. exact H.
  - rewrite D in *. exact H.
  - rewrite D1, D2, D3. exact H.
Qed.
Lemma vals_length : forall m, args m -> length vals = length set.
Proof. intros m (_ & <- & _). apply map_length. Qed.
Lemma nth_vals : forall m k e, args m -> nth_error set k = Some e -> nth k vals 0%Z = value m e.
Proof. intros m k e (_ & <- & _) H. change 0%Z with (value [] 0). rewrite (nth_indep _ (value [] 0) (value m e)) by (rewrite map_length; eapply nth_some_lt; eauto). rewrite map_nth. f_equal. now apply nth_error_nth. Qed.
Lemma skipn_seq : forall k a n, skipn k (seq a n) = seq (a + k) (n - k).
Proof. induction k as [|k IH]; intros a n; [now rewrite Nat.add_0_r, Nat.sub_0_r|]. destruct n; [reflexivity|]. cbn [seq skipn]. rewrite IH. f_equal; lia. Qed.
Lemma firstn_seq : forall k a n, firstn k (seq a n) = seq a (Nat.min k n).
Proof. induction k as [|k IH]; intros a [|n]; cbn [seq firstn Nat.min]; try reflexivity. now rewrite IH. Qed.
Lemma positions_spec : forall l r, l <= r <= length set -> positions set l r = Ret (range l r).
Proof.
  intros l r H. unfold positions, go_slice. rewrite seq_length. destruct (Nat.leb_spec l r); [|lia]. destruct (Nat.leb_spec r (length set)); [|lia].
  cbn [andb]. rewrite skipn_seq, firstn_seq. cbn [plus]. unfold range. do 2 f_equal. lia.
Qed.
Lemma slice_elems : forall l r, length vals = length set -> l <= r <= length set -> go_slice vals l r = Ret (elems (range l r)).
Proof.
  intros l r L H. unfold go_slice. destruct (Nat.leb_spec l r); [|lia]. rewrite L. destruct (Nat.leb_spec r (length set)); [|lia]. cbn [andb].
  f_equal. unfold elems, range. rewrite <- L in H. clear -H. revert r H. generalize vals. induction l as [|l IH]; intros v r H; cbn [skipn].
  - rewrite Nat.sub_0_r. revert r H. induction v as [|x v IHv]; intros [|r] H; cbn [length] in *; try lia; [reflexivity|reflexivity|].
    cbn [firstn seq map nth]. f_equal. rewrite <- seq_shift, map_map. apply IHv. lia.
  - destruct v as [|x v]; cbn [length] in H; [lia|]. destruct r as [|r]; [lia|]. cbn [Nat.sub]. rewrite <- seq_shift, map_map. cbn [nth]. apply IH. lia.
Qed.
Lemma slice_bounds : forall A (l : list A) a b x, go_slice l a b = Ret x -> a <= b <= length l.
Proof. intros A l a b x H. unfold go_slice in H. destruct (Nat.leb_spec a b); [|discriminate]. destruct (Nat.leb_spec b (length l)); [lia|discriminate]. Qed.
Lemma range_ok : forall l r, r <= length set -> Forall (fun k => k < length set) (range l r).
Proof. intros l r H. apply Forall_forall. intros k K. apply in_seq in K. lia. Qed.

(** a step inside accumulateNew, seen alone *)
Lemma astep_ok : forall m own a v part o, args m -> acc_ok m v part a -> (forall x, In x (aheld a ++ awork a) -> x < length m) ->
  (forall x, In x (awork a) -> ~ In x inputs /\ ~ In x (aheld a)) ->
  astep set Np m own a = Some o -> exists m' own' a', o = Ret (m', own', a') /\ acc_ok m' v part a' /\ args m' /\
    (forall x, x < length m -> ~ In x (awork a) -> value m' x = value m x) /\ length m <= length m' /\ incl own own' /\ incl (aheld a') (aheld a) /\ incl (awork a') (length m :: awork a).
Proof.
  intros m own a v part o (AN & AS & AB) (F & K) B D E.
  assert (ST : forall c x, c < length m -> ~ In c inputs -> args (store m c x)).
  { intros c x C NC. split; [|split].
    - rewrite value_store_neq; [exact AN|exact C|]. intros <-. apply NC. right. now left.
    - rewrite <- AS. apply map_ext_in. intros e He. apply value_store_neq; [exact C|]. intros ->. apply NC. right. now right.
    - rewrite store_length by exact C. exact AB. }
  destruct a as [g p|c g p|c [|k p]|c e p]; cbn [astep aheld awork app] in *; try discriminate; injection E as <-.
  - destruct K as (-> & K). do 3 eexists. split; [reflexivity|]. cbn [aheld awork].
    assert (G : g < length m) by (apply B; now left).
    split; [split; [exact F|split; [reflexivity|now rewrite value_alloc]]|]. split.
    { split; [|split]. - rewrite value_alloc; [exact AN|]. apply AB. right. now left. - rewrite <- AS. apply map_ext_in. intros e He. apply value_alloc. apply AB. right. now right.
      - intros a A. rewrite app_length. apply AB in A. lia. }
    split; [intros x X _; now apply value_alloc|]. rewrite app_length. split; [lia|]. split; [intros x X; now right|]. split; [apply incl_refl|]. intros x [<-|[]]. now left.
  - destruct K as (-> & K). assert (G : g < length m) by (apply B; now left). assert (C : c < length m) by (apply B; right; now left).
    destruct (D c (or_introl eq_refl)) as [D1 D2]. rewrite load_value by exact G. cbn [bind]. do 3 eexists. split; [reflexivity|]. cbn [aheld awork].
    split; [split; [exact F|exists []; split; [reflexivity|rewrite value_store_eq by exact C; exact K]]|].
    split; [now apply ST|]. split; [intros x X NX; apply value_store_neq; [exact C|intros ->; apply NX; now left]|].
    rewrite store_length by exact C. split; [lia|]. split; [apply incl_refl|]. split; [intros x []|intros x X; now right].
  - destruct K as (q & Eq & K). assert (KL : k < length set). { rewrite Forall_forall in F. apply F. rewrite Eq, in_app_iff. right. now left. }
    unfold go_index. destruct (nth_error set k) as [e|] eqn:Ek; [|apply nth_error_None in Ek; lia]. cbn [deref bind]. do 3 eexists. split; [reflexivity|]. cbn [aheld awork].
    split; [split; [exact F|exists q, k; auto]|]. split; [split; auto|]. split; [reflexivity|]. split; [lia|]. split; [apply incl_refl|]. split; [apply incl_refl|intros x X; now right].
  - destruct K as (q & k & Eq & Ek & K). assert (C : c < length m) by (apply B; now left). destruct (D c (or_introl eq_refl)) as [D1 D2].
    assert (EB : e < length m) by (apply AB; right; right; eapply nth_error_In; eauto). assert (NB : Np < length m) by (apply AB; right; now left).
    rewrite !load_value by assumption. cbn [bind]. do 3 eexists. split; [reflexivity|]. cbn [aheld awork].
    split; [split; [exact F|exists (q ++ [k]); split; [rewrite <- app_assoc; exact Eq|]]|].
    { rewrite value_store_eq by exact C. unfold elems. rewrite map_app. unfold accumulate_val. rewrite fold_left_app. cbn [map fold_left].
      change (fold_left (fun acc v0 => exp_recv acc acc v0 N) (map (fun k0 => nth k0 vals 0%Z) q) v) with (accumulate_val v N (elems q)).
      rewrite <- K, AN. rewrite (nth_vals m k e) by (repeat split; auto). reflexivity. }
    split; [now apply ST|]. split; [intros x X NX; apply value_store_neq; [exact C|intros ->; apply NX; now left]|].
    rewrite store_length by exact C. split; [lia|]. split; [apply incl_refl|]. split; [apply incl_refl|intros x X; now right].
Qed.

Lemma astep_rank : forall m own a m' own' a', astep set Np m own a = Some (Ret (m', own', a')) -> arank a' < arank a.
Proof.
  intros m own a m' own' a' E. destruct a as [g p|c g p|c [|k p]|c e p]; cbn [astep] in E; try discriminate.
  - inversion E; subst. cbn [arank]. lia.
  - destruct (load m g); try discriminate. inversion E; subst. cbn [arank]. lia.
  - destruct (go_index set k); try discriminate. inversion E; subst. cbn [arank length]. lia.
  - destruct (load m c); try discriminate. destruct (load m e); try discriminate. destruct (load m Np); try discriminate. inversion E; subst. cbn [arank]. lia.
Qed.

Lemma nth_map : forall A B (f : A -> B) l i y, nth_error (map f l) i = Some y -> exists x, nth_error l i = Some x /\ y = f x.
Proof. intros A B f l. induction l as [|a l IH]; intros [|i] y H; cbn in *; try discriminate; [injection H as <-; eauto|now apply IH]. Qed.
Lemma nth_map2 : forall A B (f : A -> B) l i x, nth_error l i = Some x -> nth_error (map f l) i = Some (f x).
Proof. intros A B f l. induction l as [|a l IH]; intros [|i] x H; cbn in *; try discriminate; [now injection H as <-|now apply IH]. Qed.

Ltac same_help SH NOTW := eapply hsim_keep; [exact SH|reflexivity|reflexivity|reflexivity|
  first [right; split; [reflexivity|split; reflexivity] | left; apply NOTW; reflexivity]].
Ltac stay w SH SC SA SK NOTW := eexists; split; [reflexivity|]; exists w; split; [constructor|left; split; [reflexivity|unfold rank; recs; cbn [mrank hrank arank]; first [lia|unfold range; rewrite seq_length; lia]]];
  [unfold msim, plain, here; try unfold w; recs | same_help SH NOTW | exact SC | exact SA | unfold known, proofs_of in *; recs; cbn [got mheld hheld app] in *; try exact SK].
Ltac advance c SH SC SA SK NOTW := eexists; split; [reflexivity|]; eexists; split; [constructor|right; exists c; reflexivity];
  [unfold msim, plain, here; recs | same_help SH NOTW | exact SC | exact SA | unfold known, proofs_of in *; recs; cbn [got mheld hheld app] in *; try exact SK].

Lemma live_inner : forall w i, live w -> w_pc w = MInner -> w_iter w = Some i -> exists nd, nth_error (w_nodes w) i = Some nd.
Proof.
  intros w i L P E. destruct (L WMain _ ltac:(unfold wstep; rewrite P, E; reflexivity)) as (w' & H).
  destruct (nth_error (w_nodes w) i) as [nd|]; [eauto|discriminate].
Qed.
Lemma live_collect : forall w i ps, live w -> w_pc w = MCollect ps -> w_iter w = Some i -> exists nd, nth_error (w_nodes w) i = Some nd.
Proof.
  intros w i ps L P E. destruct (L WMain _ ltac:(unfold wstep; rewrite P, E; reflexivity)) as (w' & H).
  destruct (nth_error (w_nodes w) i) as [nd|]; [eauto|discriminate].
Qed.
Lemma live_compute : forall w i l r nd, live w -> w_pc w = MCompute i l r -> nth_error (w_nodes w) i = Some nd -> l <= middle l r <= length vals.
Proof.
  intros w i l r nd L P E. destruct (L WMain _ ltac:(unfold wstep; rewrite P; reflexivity)) as (w' & H).
  rewrite E in H. cbn [deref bind] in H. destruct (go_slice vals l (middle l r)) eqn:G; try discriminate. eapply slice_bounds; eauto.
Qed.
Lemma live_helper : forall w i l r nd, live w -> w_hp w = HGot l r -> w_iter w = Some i -> nth_error (w_nodes w) i = Some nd -> l <= r <= length vals.
Proof.
  intros w i l r nd L P E1 E. destruct (L WHelper _ ltac:(unfold wstep; rewrite P; reflexivity)) as (w' & H).
  rewrite E1 in H. cbn [deref bind] in H. rewrite E in H. cbn [deref bind] in H. destruct (go_slice vals l r) eqn:G; try discriminate. eapply slice_bounds; eauto.
Qed.
Lemma upd_app1 : forall A (l r : list A) i x, i < length l -> upd (l ++ r) i x = upd l i x ++ r.
Proof. induction l as [|a l IH]; intros r [|i] x H; cbn in *; try lia; [reflexivity|]. rewrite IH by lia. reflexivity. Qed.

Ltac fix_it it E := destruct it; [injection E as ->|discriminate].

Lemma msim_step : forall s w o, RInv set Np base s -> Sim s w -> live w -> mstep set Np s = Some o ->
  exists s', o = Ret s' /\ exists w', Sim s' w' /\ follows s s' w w'.
Proof.
  intros [m own ns it fl pc hp cn] w o I [SM SH SC SA SK] LV H.
  destruct I as [S EL CU C461 HP C407 C473]. unfold mstep, node in H. unfold msim, plain, here in SM. recs.
  assert (NOTW : window pc = None -> idle hp) by (intros W; destruct HP as [HP|[i HP]]; [exact HP|congruence]).
  destruct w as [wns wit wfl wpc whp wcn]. recs. pose proof (vals_length _ SA) as LVS.
  set (w := MkW wns wit wfl wpc whp wcn) in *.
  destruct pc; cbn [cur window] in *; try discriminate; try (injection H as <-).
  - (* M413 *) destruct SM as ((E1 & E2) & E3 & E4). subst wfl. destruct fl; stay w SH SC SA SK NOTW; auto.
  - (* M414 *) destruct SM as ((E1 & E2) & E3 & E4). stay w SH SC SA SK NOTW; auto.
  - (* M415 *) destruct SM as ((E1 & E2) & E3 & E4 & E5). subst wfl wpc fl. advance WMain SH SC SA SK NOTW. auto.
  - (* M416 *) destruct SM as ((E1 & E2) & E3 & E4). subst wit wpc. destruct it as [i|].
    + stay w SH SC SA SK NOTW. eauto 10.
    + advance WMain SH SC SA SK NOTW. auto.
  - (* M417a *) destruct SM as ((E1 & E2) & E3 & E4 & i & E5). fix_it it E5. cbn [deref bind]. stay w SH SC SA SK NOTW. auto.
  - (* M417b *) destruct SM as ((E1 & E2) & E3 & E4 & E5). fix_it it E5. destruct (live_inner w i LV E4 E2) as (x & X). unfold w in X; recs. rewrite E1 in X.
    apply nth_map in X. destruct X as (nd & X & _). rewrite X. cbn [deref bind]. stay w SH SC SA SK NOTW. eauto 10.
  - (* M417c *) destruct SM as ((E1 & E2) & E3 & E4 & i & nd & (E5 & E6) & E7). fix_it it E5. cbn [deref bind]. stay w SH SC SA SK NOTW. eauto 10.
  - (* M417d *) destruct SM as ((E1 & E2) & E3 & E4 & nd & (E5 & E6) & E7). fix_it it E5. rewrite E6. cbn [deref bind]. rewrite <- E7.
    destruct (n_right nd - n_left nd <=? 1) eqn:Q.
    + stay w SH SC SA SK NOTW. eauto 10.
    + eexists. split; [reflexivity|]. exists (MkW wns wit wfl (MSend i (n_left nd) (n_right nd)) whp wcn). split; [constructor|right; exists WMain].
      * unfold msim, plain, here; recs. eauto 10.
      * same_help SH NOTW.
      * exact SC.
      * exact SA.
      * exact SK.
      * unfold w, wstep; recs. rewrite E4, E2, E1, (nth_map2 _ _ (absn m) _ _ _ E6). cbn [deref bind absn wr wl]. rewrite Q. reflexivity.
  - (* M418a *) destruct SM as ((E1 & E2) & E3 & E4 & i & nd & (E5 & E6) & E7). fix_it it E5. cbn [deref bind]. stay w SH SC SA SK NOTW. eauto 10.
  - (* M418b *) destruct SM as ((E1 & E2) & E3 & E4 & nd & (E5 & E6) & E7). fix_it it E5. rewrite E6. cbn [deref bind]. stay w SH SC SA SK NOTW. eauto 12.
  - (* M418c *) destruct SM as ((E1 & E2) & E3 & E4 & i & nd & (E5 & E6) & E7 & E8). fix_it it E5.
    eexists. split; [reflexivity|]. exists (MkW wns nx wfl MInner whp wcn). split; [constructor|right; exists WMain].
    + unfold msim, plain, here; recs. auto.
    + same_help SH NOTW.
    + exact SC.
    + exact SA.
    + exact SK.
    + unfold w, wstep; recs. rewrite E4, E2, E1, (nth_map2 _ _ (absn m) _ _ _ E6). cbn [deref bind absn wr wl wn]. rewrite E7, E8. reflexivity.
  - (* M421 *) destruct SM as ((E1 & E2) & E3 & i & nd & (E5 & E6) & E7). fix_it it E5. cbn [deref bind]. stay w SH SC SA SK NOTW. eauto 10.
  - (* M461 *) destruct SM as ((E1 & E2) & E3 & nd & (E5 & E6) & E7). fix_it it E5. rewrite E6. cbn [deref bind]. stay w SH SC SA SK NOTW. eauto 12.
  - (* M462 *) destruct SM as ((E1 & E2) & E3 & nd & (E5 & E6) & E7 & E8). fix_it it E5. rewrite E6. cbn [deref bind]. stay w SH SC SA SK NOTW. eauto 12.
  - (* M468 *) destruct SM as ((E1 & E2) & E3 & E4 & nd & (E5 & E6) & E7 & E8). fix_it it E5. rewrite E6. cbn [deref bind].
    assert (B : l <= middle l r <= length set). { rewrite <- LVS. eapply (live_compute w); [exact LV|exact E4|]. unfold w; recs. rewrite E1. eapply nth_map2; eauto. }
    rewrite positions_spec by exact B. cbn [bind]. stay w SH SC SA SK NOTW.
    + split; [auto|]. split; [exact E3|]. split; [exact E4|]. exists nd. repeat (split; [solve [auto]|]). split; [apply range_ok; lia|]. split; reflexivity.
    + cbn [aheld] in *. intros a A. rewrite !in_app_iff in A. cbn [In] in A. destruct A as [A|[[<-|[]]|A]]; [apply SK; rewrite in_app_iff; now left| |apply SK; rewrite in_app_iff; now right].
      apply SK. rewrite in_app_iff. left. apply in_map. eapply nth_error_In; eauto.
  - (* M468acc *) destruct SM as ((E1 & E2) & E3 & E4 & nd & (E5 & E6) & E7 & E8 & B & K). fix_it it E5.
    destruct (result_of a) as [c|] eqn:Ra.
    + destruct a as [g part|c' g part|c' [|k part]|c' e part]; try discriminate. injection Ra as ->. injection H as <-.
      stay w SH SC SA SK NOTW. split; [auto|]. split; [exact E3|]. split; [exact E4|]. exists nd. repeat (split; [solve [auto]|]).
      destruct K as (_ & q & Eq & K). rewrite app_nil_r in Eq. now subst q.
    + destruct (astep set Np m own a) as [o'|] eqn:Ea; [|discriminate]. injection H as <-.
      cbn [mwork mheld melem] in S, EL. destruct S as (S1 & S2 & S3 & S4 & S5).
      assert (W0 : forall x, In x (awork a) -> ~ In x (inputs ++ map n_proof ns ++ aheld a ++ hheld hp) /\ ~ In x (hwork hp) /\ In x own).
      { intros x X. split; [apply S4; rewrite in_app_iff; now left|]. split; [|apply S3; rewrite in_app_iff; now left].
        intros Y. apply in_split in X. destruct X as (u & v & X). rewrite X, <- app_assoc in S2. cbn [app] in S2. apply NoDup_remove_2 in S2. apply S2. rewrite !in_app_iff. tauto. }
      assert (QA : forall x, In x (aheld a ++ awork a) -> x < length m).
      { intros x X. rewrite in_app_iff in X. apply S1. rewrite !in_app_iff. destruct X as [X|X]; [tauto|]. apply W0 in X. tauto. }
      assert (QB : forall x, In x (awork a) -> ~ In x inputs /\ ~ In x (aheld a)).
      { intros x X. apply W0 in X. rewrite !in_app_iff in X. tauto. }
      destruct (astep_ok _ _ _ _ _ _ SA K QA QB Ea) as (m' & own' & a' & -> & K' & SA' & V & Lm & IO & IH & IW).
      cbn [bind]. eexists. split; [reflexivity|]. exists w. split; [|left; split; [reflexivity|unfold rank; recs; cbn [mrank hrank]; pose proof (astep_rank _ _ _ _ _ _ Ea); lia]].
      assert (VP : forall x, In x (map n_proof ns ++ hheld hp ++ hwork hp) -> value m' x = value m x).
      { intros x X. apply V.
        - apply S1. rewrite !in_app_iff in *. destruct X as [X|[X|X]]; auto. right. right. right. apply S3. rewrite in_app_iff. now right.
        - intros Y. apply W0 in Y. rewrite !in_app_iff in *. tauto. }
      constructor.
      * assert (Q : msim (MkR m' own' ns (Some i) fl (M468 i l r) hp cn) w).
        { apply (msim_mem (MkR m own ns (Some i) fl (M468 i l r) hp cn) w m' own').
          - unfold msim, plain, here; recs. eauto 10.
          - cbn [r_pc got mheld mwork app r_mem proofs_of r_nodes]. intros x X. apply VP. rewrite app_nil_r in X. rewrite in_app_iff. now left. }
        unfold msim, plain, here in Q |- *; recs. destruct Q as (Q1 & Q2 & Q3 & nd' & (Q4 & Q5) & Q6 & Q7).
        assert (nd' = nd) by congruence. subst nd'. split; [exact Q1|]. split; [exact Q2|]. split; [exact Q3|]. exists nd. repeat (split; [solve [auto]|]).
        rewrite VP; [exact K'|]. rewrite in_app_iff. left. apply in_map. eapply nth_error_In; eauto.
      * apply (hsim_mem (MkR m own ns (Some i) fl (M468acc i l r a') hp cn) w m' own').
        { eapply hsim_keep; [exact SH|reflexivity|reflexivity|reflexivity|right; auto]. }
        intros x X. apply VP. rewrite in_app_iff. now right.
      * exact SC.
      * exact SA'.
      * unfold known, proofs_of in *; recs. cbn [got mheld] in *. cbn [app] in *. intros x X. assert (In x (base :: own)); [|destruct H; [now left|right; now apply IO]].
        apply SK. rewrite !in_app_iff in *. destruct X as [X|[X|X]]; auto.
  - (* M469 *) destruct SM as ((E1 & E2) & E3 & E4 & nd & (E5 & E6) & E7 & E8 & B & K). fix_it it E5. rewrite E6. cbn [deref bind]. stay w SH SC SA SK NOTW. eauto 15.
  - (* M465 *) destruct SM as ((E1 & E2) & E3 & E4 & nd & (E5 & E6) & E7 & E8 & B & K & E9). fix_it it E5.
    eexists. split; [reflexivity|]. exists (MkW wns wit wfl (MRecv i l r (absn m (RNode (middle l r) r c nx))) whp wcn). split; [constructor|right; exists WMain].
    + unfold msim, plain, here; recs. split; [exact E2|]. split; [exact E3|]. split; [reflexivity|]. exists ns, nd, (RNode (middle l r) r c nx). auto 10.
    + same_help SH NOTW.
    + exact SC.
    + exact SA.
    + unfold known, proofs_of in *; recs. cbn [got mheld app] in *. rewrite map_app. cbn [map n_proof]. intros x X. rewrite !in_app_iff in X. destruct X as [[X|[<-|[]]]|X].
      * apply SK. rewrite in_app_iff. now left.
      * destruct S as (_ & _ & S3 & _). right. apply S3. cbn [mwork]. now left.
      * apply SK. rewrite in_app_iff. now right.
    + unfold w, wstep; recs. rewrite E4, E1, (nth_map2 _ _ (absn m) _ _ _ E6). cbn [deref bind absn wp wn]. rewrite slice_elems by assumption. cbn [bind].
      unfold absn; cbn [n_left n_right n_proof n_next]. rewrite K, E9. reflexivity.
  - (* M471 *) destruct SM as (E2 & E3 & E5 & old & nd & nw & -> & -> & E6 & E7 & E8 & E9 & E10). fix_it it E5.
    assert (IL : i < length old) by (eapply nth_some_lt; eauto).
    rewrite nth_error_app1, E6 by exact IL. cbn [deref bind]. assert (Q : set_left nd l = nd) by (destruct nd; unfold set_left; cbn in *; congruence).
    rewrite Q, upd_app1, (upd_id _ _ _ _ E6) by exact IL. stay w SH SC SA SK NOTW. split; [exact E2|]. split; [exact E3|]. split; [reflexivity|]. exists old, nd, nw. auto 10.
  - (* M472 *) destruct SM as (E2 & E3 & E5 & old & nd & nw & -> & -> & E6 & E7 & E8 & E9 & E10). fix_it it E5.
    assert (IL : i < length old) by (eapply nth_some_lt; eauto).
    rewrite nth_error_app1, E6 by exact IL. cbn [deref bind]. rewrite upd_app1 by exact IL. stay w SH SC SA SK NOTW.
    + split; [exact E2|]. split; [exact E3|]. split; [reflexivity|]. exists old, nd, nw. auto 10.
    + rewrite map_app in *. intros x X. apply SK. rewrite !in_app_iff in *. destruct X as [[X|X]|X]; auto. left. left.
      eapply upd_same_proof; [exact E6| |exact X]. reflexivity.
  - (* M473w *) destruct SM as (E3 & E4 & old & nd & nw & -> & -> & IL & E7 & E8 & E9 & E10).
    rewrite nth_error_app1, nth_upd_eq by (rewrite ?length_upd; exact IL). cbn [deref bind]. rewrite upd_app1, upd_upd by (rewrite length_upd; exact IL).
    eexists; split; [reflexivity|]; exists w; split; [constructor|left; split; [reflexivity|unfold rank; recs; cbn [mrank hrank arank]; lia]].
    + unfold msim, plain, here; recs. split; [exact E3|]. split; [exact E4|]. exists old, (set_proof nd v), nw. repeat (split; [solve [auto]|]). split; [|exact E10].
      unfold w; recs. rewrite E9. unfold set_next, set_proof. cbn [n_left n_right n_proof n_next]. now rewrite E7, E8.
    + same_help SH NOTW.
    + exact SC.
    + exact SA.
    + unfold known, proofs_of in *; recs. cbn [got mheld app] in *. rewrite map_app in *. intros x X. rewrite !in_app_iff in X. destruct X as [[X|X]|X].
      * rewrite <- (upd_upd _ old i nd) in X. apply upd_new_proof with (v := v) in X; [|reflexivity]. destruct X as [<-|X].
        { destruct S as (_ & _ & S3 & _). right. apply S3. cbn [mwork]. now left. }
        apply SK. rewrite !in_app_iff. tauto.
      * apply SK. rewrite !in_app_iff. tauto.
      * apply SK. rewrite !in_app_iff. tauto.
  - (* M474 *) destruct SM as (E3 & E4 & old & nd & nw & -> & -> & IL & E9 & E10).
    rewrite nth_error_app1, nth_upd_eq by (rewrite ?length_upd; exact IL). cbn [deref bind]. rewrite upd_app1, upd_upd by (rewrite length_upd; exact IL).
    eexists; split; [reflexivity|]; exists w; split; [constructor|left; split; [reflexivity|unfold rank; recs; cbn [mrank hrank arank]; lia]].
    + unfold msim, plain, here; recs. split; [exact E3|]. split; [exact E4|]. split; [exact E9|]. exists nw. split; [|exact E10].
      rewrite nth_error_app2; rewrite length_upd; [|lia]. rewrite Nat.sub_diag. reflexivity.
    + same_help SH NOTW.
    + exact SC.
    + exact SA.
    + unfold known, proofs_of in *; recs. cbn [got mheld app] in *. rewrite map_app in *. intros x X. apply SK. rewrite !in_app_iff in *. destruct X as [[X|X]|X]; auto. left. left.
      rewrite <- (upd_upd _ old i nd) in X. eapply upd_same_proof; [apply nth_upd_eq; exact IL| |exact X]. reflexivity.
  - (* M475 *) destruct SM as (E3 & E4 & E5 & nw & E6 & E7). rewrite E6. cbn [deref bind]. stay w SH SC SA SK NOTW. auto.
  - (* M421w *) destruct SM as (E3 & E4 & E5 & E6). stay w SH SC SA SK NOTW. auto.
  - (* M422 *) destruct SM as ((E1 & E2) & E3 & E4). stay w SH SC SA SK NOTW. auto.
  - (* M427 *) destruct SM as ((E1 & E2) & E3 & E4 & E5). subst wfl wpc fl. advance WMain SH SC SA SK NOTW. auto.
  - (* M427t *) destruct SM as ((E1 & E2) & E3 & E4). subst wit. destruct it as [i|]; stay w SH SC SA SK NOTW; eauto 12.
  - (* M428a *) destruct SM as ((E1 & E2) & E3 & E4 & i & E5). fix_it it E5. cbn [deref bind]. stay w SH SC SA SK NOTW. auto.
  - (* M428b *) destruct SM as ((E1 & E2) & E3 & E4 & E5). fix_it it E5. destruct (live_collect w i _ LV E4 E2) as (x & X). unfold w in X; recs. rewrite E1 in X.
    apply nth_map in X. destruct X as (nd & X & _). rewrite X. cbn [deref bind]. stay w SH SC SA SK NOTW.
    + eauto 12.
    + intros a A. rewrite !in_app_iff in A. cbn [In] in A. destruct A as [A|[[A|[<-|[]]]|A]]; try (apply SK; rewrite !in_app_iff; tauto).
      apply SK. rewrite in_app_iff. left. apply in_map. eapply nth_error_In; eauto.
  - (* M427a *) destruct SM as ((E1 & E2) & E3 & qs & i & nd & (E5 & E6) & E7 & E8). fix_it it E5. cbn [deref bind]. stay w SH SC SA SK NOTW. eauto 12.
  - (* M427b *) destruct SM as ((E1 & E2) & E3 & qs & nd & (E5 & E6) & E7 & E8). fix_it it E5. rewrite E6. cbn [deref bind]. stay w SH SC SA SK NOTW. eauto 14.
  - (* M427c *) destruct SM as ((E1 & E2) & E3 & qs & i & nd & (E5 & E6) & E7 & E8 & E9). fix_it it E5.
    eexists. split; [reflexivity|]. exists (MkW wns nx wfl (MCollect (map (value m) ps)) whp wcn). split; [constructor|right; exists WMain].
    + unfold msim, plain, here; recs. auto.
    + same_help SH NOTW.
    + exact SC.
    + exact SA.
    + exact SK.
    + unfold w, wstep; recs. rewrite E9, E2, E1, (nth_map2 _ _ (absn m) _ _ _ E6). cbn [deref bind absn wp wn]. rewrite E7, E8, map_app. reflexivity.
  - (* M430 *) destruct SM as ((E1 & E2) & E3 & E4 & E5). subst wit wpc. destruct it; [discriminate|].
    eexists. split; [reflexivity|]. exists (MkW wns None wfl (MRet (map (value m) ps)) whp true). split; [constructor|right; exists WMain; reflexivity].
    + unfold msim; recs. reflexivity.
    + same_help SH NOTW.
    + reflexivity.
    + exact SA.
    + exact SK.
Qed.

Lemma window_node : forall s w i, msim s w -> window (r_pc s) = Some i -> exists nd it,
  nth_error (r_nodes s) i = Some nd /\ r_iter s = Some i /\ w_iter w = Some i /\ nth_error (w_nodes w) i = Some it /\ wp it = value (r_mem s) (n_proof nd).
Proof.
  intros [m own ns it fl pc hp cn] [wns wit wfl wpc whp wcn] i SM W. unfold msim, plain, here in SM. recs.
  destruct pc; cbn [window] in W; try discriminate; injection W as ->.
  - destruct SM as ((E1 & E2) & _ & _ & nd & (E5 & E6) & _). exists nd, (absn m nd). subst. repeat split; auto. now apply nth_map2.
  - destruct SM as ((E1 & E2) & _ & _ & nd & (E5 & E6) & _). exists nd, (absn m nd). subst. repeat split; auto. now apply nth_map2.
  - destruct SM as ((E1 & E2) & _ & _ & nd & (E5 & E6) & _). exists nd, (absn m nd). subst. repeat split; auto. now apply nth_map2.
  - destruct SM as ((E1 & E2) & _ & _ & nd & (E5 & E6) & _). exists nd, (absn m nd). subst. repeat split; auto. now apply nth_map2.
  - destruct SM as (E2 & _ & E5 & old & nd & nw & -> & _ & E6 & _ & _ & E9 & _). exists nd, (absn m nd). subst. repeat split; auto.
    + rewrite nth_error_app1; [exact E6|eapply nth_some_lt; eauto].
    + now apply nth_map2.
  - destruct SM as (E2 & _ & E5 & old & nd & nw & -> & _ & E6 & _ & _ & E9 & _). exists nd, (absn m nd). subst. repeat split; auto.
    + rewrite nth_error_app1; [exact E6|eapply nth_some_lt; eauto].
    + now apply nth_map2.
  - destruct SM as (E2 & _ & E5 & old & nd & nw & -> & _ & E6 & _ & _ & E9 & _). exists (set_right nd (middle l r)), (absn m nd). subst. repeat split; auto.
    + rewrite nth_error_app1; [apply nth_upd_eq|rewrite length_upd]; eapply nth_some_lt; eauto.
    + now apply nth_map2.
Qed.

Lemma hsim_step : forall s w o, RInv set Np base s -> Sim s w -> live w -> hstep set Np s = Some o ->
  exists s', o = Ret s' /\ exists w', Sim s' w' /\ follows s s' w w'.
Proof.
  intros s w o I [SM SH SC SA SK] LV H. destruct I as [S EL CU C461 HP C407 C473]. pose proof (vals_length _ SA) as LVS.
  assert (WN : r_hp s <> H405 -> r_hp s <> H409 -> exists i nd it, nth_error (r_nodes s) i = Some nd /\ r_iter s = Some i /\ w_iter w = Some i /\
    nth_error (w_nodes w) i = Some it /\ wp it = value (r_mem s) (n_proof nd)).
  { intros A B. destruct HP as [[HP|HP]|(i & HP)]; [contradiction|contradiction|]. exists i. eapply window_node; eauto. }
  unfold hstep, node in H. unfold hsim in SH. destruct (r_hp s) as [|l r|l r i|l r a|c|] eqn:Eh; try discriminate.
  - injection H as <-. destruct WN as (i & nd & it & W1 & W2 & W3 & W4 & W5); try discriminate. rewrite W2. cbn [deref bind].
    eexists. split; [reflexivity|]. exists w. split; [|left; split; [reflexivity|unfold rank; recs; cbn [mrank hrank]; rewrite Eh; cbn [hrank arank]; first [lia|unfold range; rewrite seq_length; lia]]]. constructor; try assumption.
    + unfold hsim; recs. cbn [r_hp hgoto]. auto.
    + unfold known in *. rewrite Eh in SK. exact SK.
  - injection H as <-. destruct SH as (SH & SI). destruct WN as (i' & nd & it & W1 & W2 & W3 & W4 & W5); try discriminate.
    assert (i' = i) by congruence. subst i'. rewrite W1. cbn [deref bind].
    assert (B : l <= r <= length set) by (rewrite <- LVS; eapply live_helper; eauto).
    rewrite positions_spec by exact B. cbn [bind]. eexists. split; [reflexivity|]. exists w. split; [|left; split; [reflexivity|unfold rank; recs; cbn [mrank hrank]; rewrite Eh; cbn [hrank arank]; first [lia|unfold range; rewrite seq_length; lia]]]. constructor; try assumption.
    + unfold hsim; recs. cbn [r_hp hgoto]. split; [exact SH|]. split; [exact B|]. exists i, it. split; [exact W3|]. split; [exact W4|]. split; [apply range_ok; lia|].
      split; [reflexivity|]. cbn [r_mem]. now rewrite W5.
    + unfold known, proofs_of in *. rewrite Eh in SK. cbn [r_nodes r_pc r_hp hgoto r_own hheld aheld] in *. intros x X. rewrite !in_app_iff in X. destruct X as [X|[X|[X|[<-|[]]]]];
        apply SK; rewrite !in_app_iff; auto. left. apply in_map. eapply nth_error_In; eauto.
  - destruct SH as (SH & B & i & it & W3 & W4 & K). destruct (result_of a) as [c|] eqn:Ra.
    + destruct a as [g part|c' g part|c' [|k part]|c' e part]; try discriminate. injection Ra as ->. injection H as <-.
      eexists. split; [reflexivity|]. exists (MkW (w_nodes w) (w_iter w) (w_flag w) (w_pc w) (HSend (value (r_mem s) c)) (w_cancelled w)). split; [|right; exists WHelper].
      * constructor; try assumption.
        { unfold hsim; recs. reflexivity. }
        unfold known in *. rewrite Eh in SK. exact SK.
      * destruct K as (_ & q & Eq & K). rewrite app_nil_r in Eq. subst q. unfold wstep. rewrite SH, W3. cbn [deref bind]. rewrite W4. cbn [deref bind].
        rewrite slice_elems by assumption. cbn [bind]. now rewrite K.
    + destruct (astep set Np (r_mem s) (r_own s) a) as [o'|] eqn:Ea; [|discriminate]. injection H as <-.
      cbn [hwork hheld] in S. destruct S as (S1 & S2 & S3 & S4 & S5).
      assert (W0 : forall x, In x (awork a) -> ~ In x (inputs ++ proofs_of s ++ mheld (r_pc s) ++ aheld a) /\ ~ In x (mwork (r_pc s)) /\ In x (r_own s)).
      { intros x X. split; [apply S4; rewrite in_app_iff; now right|]. split; [|apply S3; rewrite in_app_iff; now right].
        intros Y. apply in_split in X. destruct X as (u & v & X). rewrite X, app_assoc in S2. apply NoDup_remove_2 in S2. apply S2. rewrite !in_app_iff. tauto. }
      assert (QA : forall x, In x (aheld a ++ awork a) -> x < length (r_mem s)).
      { intros x X. rewrite in_app_iff in X. apply S1. rewrite !in_app_iff. destruct X as [X|X]; [tauto|]. apply W0 in X. tauto. }
      assert (QB : forall x, In x (awork a) -> ~ In x inputs /\ ~ In x (aheld a)).
      { intros x X. apply W0 in X. rewrite !in_app_iff in X. tauto. }
      destruct (astep_ok _ _ _ _ _ _ SA K QA QB Ea) as (m' & own' & a' & -> & K' & SA' & V & Lm & IO & IH & IW).
      cbn [bind]. eexists. split; [reflexivity|]. exists w. split; [|left; split; [reflexivity|unfold rank; recs; cbn [mrank hrank]; rewrite Eh; cbn [hrank]; pose proof (astep_rank _ _ _ _ _ _ Ea); lia]].
      assert (VP : forall x, In x (proofs_of s ++ mheld (r_pc s) ++ mwork (r_pc s)) -> value m' x = value (r_mem s) x).
      { intros x X. apply V.
        - apply S1. rewrite !in_app_iff in *. destruct X as [X|[X|X]]; auto. right. right. right. apply S3. rewrite in_app_iff. now left.
        - intros Y. apply W0 in Y. rewrite !in_app_iff in *. tauto. }
      assert (G : got (r_pc s) = []).
      { destruct HP as [[HP|HP]|(j & HP)]; [congruence|congruence|]. destruct (r_pc s); cbn [window] in HP; try discriminate; reflexivity. }
      constructor.
      * change (msim (with_mem s m' own') w). apply msim_mem; [exact SM|]. rewrite G. exact VP.
      * unfold hsim; recs. cbn [r_hp hput_mem r_mem]. split; [exact SH|]. split; [exact B|]. exists i, it. auto.
      * exact SC.
      * exact SA'.
      * unfold known, proofs_of in *. rewrite Eh in SK. cbn [r_nodes r_pc r_hp hput_mem r_own hheld] in *. intros x X.
        assert (Q : In x (base :: r_own s)); [|destruct Q; [now left|right; now apply IO]]. apply SK. rewrite !in_app_iff in *. destruct X as [X|[X|[X|X]]]; auto.
Qed.

Lemma csim : forall s w s', Sim s w -> csend s = Some s' -> exists w', Sim s' w' /\ follows s s' w w'.
Proof.
  intros [m own ns it fl pc hp cn] [wns wit wfl wpc whp wcn] s' [SM SH SC SA SK] H. unfold csend in H. unfold msim, hsim, plain, here in *. recs.
  destruct pc; try discriminate. destruct hp; try discriminate. injection H as <-. destruct SM as ((E1 & E2) & E3 & nd & (E4 & E5) & E6 & E7 & E8). subst wpc whp.
  eexists. split; [constructor|right; exists WSendChan; reflexivity]; unfold msim, hsim, plain, here; recs; eauto 10.
Qed.
Lemma isim : forall s w s', RInv set Np base s -> Sim s w -> citer s = Some s' -> exists w', Sim s' w' /\ follows s s' w w'.
Proof.
  intros [m own ns it fl pc hp cn] [wns wit wfl wpc whp wcn] s' I [SM SH SC SA SK] H. unfold citer in H. unfold msim, hsim, plain, here in *. recs.
  destruct pc; try discriminate. destruct hp; try discriminate. injection H as <-.
  destruct SM as (E2 & E3 & E5 & old & nd & nw & -> & -> & E6 & E7 & E8 & E9 & E10). subst wpc whp.
  eexists. split; [constructor|right; exists WIterChan; reflexivity]; unfold msim, hsim, plain, here; recs; auto.
  split; [reflexivity|]. split; [reflexivity|]. exists old, (set_right nd (middle l r)), nw. split; [reflexivity|]. split; [reflexivity|]. split; [eapply nth_some_lt; eauto|].
  split; [exact E7|]. split; [reflexivity|]. split; [|reflexivity]. rewrite map_app, map_upd. cbn [map]. subst wns. rewrite map_length. reflexivity.
Qed.
Lemma dsim : forall s w s', Sim s w -> cdone s = Some s' -> exists w', Sim s' w' /\ follows s s' w w'.
Proof.
  intros s w s' [SM SH SC SA SK] H. unfold cdone in H. unfold hsim in SH. destruct (r_hp s) eqn:Eh; try discriminate. destruct (r_cancelled s) eqn:Ec; [|discriminate]. injection H as <-.
  exists (MkW (w_nodes w) (w_iter w) (w_flag w) (w_pc w) HDone (w_cancelled w)). split; [|right; exists WDoneChan].
  - constructor; try assumption.
    + reflexivity.
    + cbn. now rewrite SC, Ec.
    + unfold known in *. rewrite Eh in SK. exact SK.
  - unfold wstep. rewrite SH, SC. reflexivity.
Qed.
Lemma esim : forall s w s', RInv set Np base s -> Sim s w -> env set Np base s s' -> Sim s' w.
Proof.
  intros s w s' I [SM SH SC SA SK] (m' & -> & L & V). destruct I as [(S1 & S2 & S3 & S4 & S5) EL CU C461 HP C407 C473].
  assert (VV : forall a, In a (base :: Np :: set ++ r_own s) -> value m' a = value (r_mem s) a).
  { intros a A. unfold value. apply V in A. destruct (nth_error (r_mem s) a) as [x|] eqn:E.
    - now rewrite (nth_error_nth _ _ _ A), (nth_error_nth _ _ _ E).
    - apply nth_error_None in A, E. now rewrite !nth_overflow. }
  assert (VK : forall a, In a (known s ++ mwork (r_pc s) ++ hwork (r_hp s)) -> value m' a = value (r_mem s) a).
  { intros a A. apply VV. rewrite in_app_iff in A. destruct A as [A|A].
    - apply SK in A. destruct A as [<-|A]; [now left|]. right. right. rewrite in_app_iff. now right.
    - apply S3 in A. right. right. rewrite in_app_iff. now right. }
  constructor.
  - change (msim (with_mem s m' (r_own s)) w). apply msim_mem; [exact SM|]. intros a A. apply VK. unfold known. rewrite !in_app_iff in *. tauto.
  - change (hsim (with_mem s m' (r_own s)) w). apply hsim_mem; [exact SH|]. intros a A. apply VK. unfold known. rewrite !in_app_iff in *. tauto.
  - exact SC.
  - destruct SA as (A1 & A2 & A3). split; [|split].
    + cbn [r_mem]. rewrite VV; [exact A1|]. right. now left.
    + cbn [r_mem]. rewrite <- A2. apply map_ext_in. intros a A. apply VV. right. right. rewrite in_app_iff. now left.
    + cbn [r_mem]. intros a A. apply A3 in A. lia.
  - exact SK.
Qed.

(** ** every run *)
Variable left right : nat.
Lemma sim_start : forall m, args m -> set <> [] -> Sim (rstart base left right m) (wstart vals (value m base) left right).
Proof.
  intros m A NE. assert (V : vals <> []). { destruct A as (_ & <- & _). destruct set; [contradiction|discriminate]. }
  unfold wstart. destruct vals eqn:Ev; [contradiction|]. constructor; unfold rstart; recs.
  - unfold msim, plain, here; recs. auto.
  - reflexivity.
  - reflexivity.
  - exact A.
  - unfold known, proofs_of; cbn. intros a [<-|[]]. now left.
Qed.

Lemma rank_bound : forall s w, Sim s w -> rank s <= 4 * length set + 30.
Proof.
  intros s w [SM SH _ _ _]. unfold rank.
  assert (A : forall m v part a, acc_ok m v part a -> length part <= length set -> arank a <= 2 * length set + 2).
  { intros m v part a (_ & K) L. destruct a as [g p|c g p|c p|c e p]; cbn [arank].
    - destruct K as (-> & _). lia.
    - destruct K as (-> & _). lia.
    - destruct K as (q & -> & _). rewrite app_length in L. lia.
    - destruct K as (q & k & -> & _). rewrite app_length in L. cbn [length] in L. lia. }
  assert (B : mrank (r_pc s) <= 2 * length set + 16).
  { unfold msim in SM. destruct (r_pc s); cbn [mrank]; try lia. destruct SM as (_ & _ & _ & nd & _ & _ & _ & B & K). apply A in K; [lia|]. unfold range. rewrite seq_length. lia. }
  assert (C : hrank (r_hp s) <= 2 * length set + 6).
  { unfold hsim in SH. destruct (r_hp s); cbn [hrank]; try lia. destruct SH as (_ & B' & i & it & _ & _ & K). apply A in K; [lia|]. unfold range. rewrite seq_length. lia. }
  lia.
Qed.

Hypothesis HN : (0 < N)%Z.
Hypothesis Hvals : Forall (fun x => (0 <= x)%Z) vals.
Variable g : Z.
Notation WI := (WInv g N vals left right).
Notation meas := (wmeasure (right - left)).
Lemma winv_live : forall w, WI w -> live w.
Proof. intros w I c st H. destruct (wstep_inv g N vals HN Hvals left right w c st I H) as (w' & -> & _). eauto. Qed.

Definition budget : nat := (4 * length set + 31) * S (wbound (right - left)).
Lemma reached_sim : forall m k s, args m -> seg_ok g N vals (value m base) left right -> reached set Np base left right m k s ->
  exists w, Sim s w /\ WI w /\ k + (4 * length set + 31) * meas w + rank s <= budget.
Proof.
  intros m k s A G R. assert (AB : forall a, In a inputs -> a < length m) by apply A.
  assert (NE : set <> []). { intros E. destruct G as (G & _). rewrite (vals_length _ A), E in G. cbn in G. lia. }
  destruct (wstart_inv g N vals Hvals left right _ G) as (W0 & M0). unfold budget. set (K := 4 * length set + 31) in *.
  induction R as [|k s s' R IH P|k s s' R IH E].
  - exists (wstart vals (value m base) left right). assert (SS := sim_start m A NE). split; [exact SS|]. split; [exact W0|].
    assert (B := rank_bound _ _ SS). assert (K * meas (wstart vals (value m base) left right) <= K * wbound (right - left)) by (apply Nat.mul_le_mono_l; exact M0).
    rewrite Nat.mul_succ_r. assert (rank (rstart base left right m) <= K) by (unfold K; lia). clear - H H0; lia.
  - destruct IH as (w & SS & WW & B). pose proof (reached_inv _ _ _ _ _ _ _ _ AB R) as I. pose proof (winv_live w WW) as LV.
    assert (Q : exists w', Sim s' w' /\ follows s s' w w').
    { destruct P as [s' P|s' P|s' P|s' P|s' P].
      - destruct (msim_step _ _ _ I SS LV P) as (s'' & [= <-] & Q). exact Q.
      - destruct (hsim_step _ _ _ I SS LV P) as (s'' & [= <-] & Q). exact Q.
      - eapply csim; eauto.
      - eapply isim; eauto.
      - eapply dsim; eauto. }
    destruct Q as (w' & SS' & [(-> & L)|(c & St)]).
    + exists w. split; [exact SS'|]. split; [exact WW|]. clear - B L. lia.
    + destruct (wstep_inv g N vals HN Hvals left right w c _ WW St) as (w2 & [= <-] & WW' & L). exists w'. split; [exact SS'|]. split; [exact WW'|].
      assert (RB := rank_bound _ _ SS'). assert (K * S (meas w') <= K * meas w) by (apply Nat.mul_le_mono_l; exact L). rewrite Nat.mul_succ_r in H.
      assert (rank s' < K) by (unfold K; lia). clear - B H H0. lia.
  - destruct IH as (w & SS & WW & B). pose proof (reached_inv _ _ _ _ _ _ _ _ AB R) as I. exists w. split; [eapply esim; eauto|]. split; [exact WW|].
    destruct E as (m' & -> & _). exact B.
Qed.
(** no step crashes, and there is one until both goroutines have returned *)
Lemma no_crash : forall m k s o, args m -> seg_ok g N vals (value m base) left right -> reached set Np base left right m k s ->
  mstep set Np s = Some o \/ hstep set Np s = Some o -> exists s', o = Ret s'.
Proof.
  intros m k s o A G R H. destruct (reached_sim _ _ _ A G R) as (w & SS & WW & _). pose proof (reached_inv _ _ _ _ _ _ _ _ (proj2 (proj2 A)) R) as I.
  pose proof (winv_live w WW) as LV. destruct H as [H|H].
  - destruct (msim_step _ _ _ I SS LV H) as (s' & -> & _). eauto.
  - destruct (hsim_step _ _ _ I SS LV H) as (s' & -> & _). eauto.
Qed.
Lemma progress : forall m k s, args m -> seg_ok g N vals (value m base) left right -> reached set Np base left right m k s ->
  ((exists ps, r_pc s = MEnd ps) /\ r_hp s = H409) \/ exists s', pstep set Np s s'.
Proof.
  intros m k s A G R. destruct (reached_sim _ _ _ A G R) as (w & SS & WW & _).
  assert (MS : (exists o, mstep set Np s = Some o) -> exists s', pstep set Np s s').
  { intros (o & H). destruct (no_crash m k s o A G R (or_introl H)) as (s' & ->). exists s'. now apply r_main. }
  assert (HS : (exists o, hstep set Np s = Some o) -> exists s', pstep set Np s s').
  { intros (o & H). destruct (no_crash m k s o A G R (or_intror H)) as (s' & ->). exists s'. now apply r_helper. }
  destruct SS as [SM SH SC SA SK]. unfold WInv in WW.
  assert (HH : forall l r, w_hp w = HGot l r -> exists o, hstep set Np s = Some o).
  { intros l r E. unfold hsim in SH. unfold hstep. destruct (r_hp s) as [|l' r'|l' r' i|l' r' a|c|]; try congruence; eauto.
    destruct (result_of a) eqn:Ra; [eauto|]. destruct a as [gg p|c gg p|c [|kk p]|c e p]; try discriminate; cbn [astep alloc]; eauto. }
  unfold msim in SM. destruct (r_pc s) eqn:Ep; try (right; apply MS; unfold mstep; rewrite Ep; eauto; fail).
  - (* M464 *) right. destruct SM as (_ & _ & nd & _ & _ & _ & E). rewrite E in WW. destruct WW as ((F & _) & _). unfold hsim in SH.
    destruct (r_hp s) eqn:Eh; try (exfalso; (congruence || (destruct SH as (SH & _); congruence))).
    eexists. apply r_send. unfold csend. rewrite Ep, Eh. reflexivity.
  - (* acc *) right. apply MS. unfold mstep. rewrite Ep. destruct (result_of a) eqn:Ra; [eauto|].
    destruct a as [gg p|c gg p|c [|kk p]|c e p]; try discriminate; cbn [astep alloc]; eauto.
  - (* M473 *) right. destruct SM as (_ & _ & _ & old & nd & nw & _ & _ & _ & _ & _ & _ & E). rewrite E in WW.
    destruct WW as (pre & suf & mm & nd' & _ & _ & (_ & F) & _). destruct F as [F|F]; [apply HS; eauto|].
    unfold hsim in SH. destruct (r_hp s) eqn:Eh; try (exfalso; (congruence || (destruct SH as (SH & _); congruence))).
    eexists. apply r_recv. unfold citer. rewrite Ep, Eh. reflexivity.
  - (* MEnd *) rewrite SM in WW. destruct WW as (_ & C & F). unfold hsim in SH.
    destruct (r_hp s) eqn:Eh; try (exfalso; destruct F; (congruence || (destruct SH as (SH & _); congruence))).
    + right. eexists. apply r_done. unfold cdone. rewrite Eh, <- SC, C. reflexivity.
    + left. eauto.
Qed.
Lemma result : forall m k s ps, args m -> seg_ok g N vals (value m base) left right -> reached set Np base left right m k s ->
  r_pc s = MEnd ps -> map (value (r_mem s)) ps = slice (wit g N 1 vals) left right.
Proof.
  intros m k s ps A G R E. destruct (reached_sim _ _ _ A G R) as (w & SS & WW & _). destruct SS as [SM _ _ _ _]. unfold msim in SM. rewrite E in SM.
  unfold WInv in WW. rewrite SM in WW. destruct WW as (WW & _). exact WW.
Qed.
End Sim.

Lemma skipn_twice : forall A (v : list A) a b, skipn b (skipn a v) = skipn (a + b) v.
Proof. induction v as [|x v IH]; intros [|a] b; cbn [skipn plus]; auto; now rewrite !skipn_nil. Qed.
(** the number a worker starts from is the generator raised to everything outside its range *)
Lemma seg_outside : forall g N vals left right, (0 < N)%Z -> Forall (fun x => (0 <= x)%Z) vals -> left < right <= length vals ->
  seg_ok g N vals ((g ^ product (firstn left vals ++ skipn right vals)) mod N) left right.
Proof.
  intros g N vals l r HN Hv H. split; [exact H|]. split; [apply Z.mod_pos_bound; exact HN|].
  assert (E : vals = firstn l vals ++ slice vals l r ++ skipn r vals).
  { unfold slice. rewrite <- (firstn_skipn l vals) at 1. f_equal. rewrite <- (firstn_skipn (r - l) (skipn l vals)) at 1. f_equal. rewrite skipn_twice. f_equal. lia. }
  set (a := firstn l vals) in *. set (b := slice vals l r) in *. set (c := skipn r vals) in *.
  assert (La : length a = l) by (unfold a; rewrite firstn_length; lia). assert (Lb : length b = r - l) by (unfold b; rewrite slice_length by lia; reflexivity).
  assert (Fa : Forall (fun x => (0 <= x)%Z) a) by (rewrite E in Hv; apply Forall_app in Hv; tauto).
  assert (Fc : Forall (fun x => (0 <= x)%Z) c) by (rewrite E in Hv; apply Forall_app in Hv; destruct Hv as [_ Hv]; apply Forall_app in Hv; tauto).
  assert (Fb : Forall (fun x => (0 <= x)%Z) b) by (rewrite E in Hv; apply Forall_app in Hv; destruct Hv as [_ Hv]; apply Forall_app in Hv; tauto).
  rewrite wit_base; [|apply product_nonneg, Forall_app; auto|lia|exact Fb].
  unfold Wits. rewrite E, !wit_app. unfold slice. rewrite skipn_app, wit_length, La, Nat.sub_diag, skipn_all2 by (rewrite wit_length; lia). cbn [skipn app].
  rewrite firstn_app, wit_length, Lb, Nat.sub_diag. cbn [firstn]. rewrite app_nil_r, firstn_all2 by (rewrite wit_length; lia).
  f_equal. rewrite product_app. ring.
Qed.
