(** Theorems for property C122: what a precomputed table keeps of the caller's numbers. *)
From Coq Require Import ZArith Bool Lia String Ascii List.
From Verif Require Import GoBig GoBigFacts Spec AccModel AccFacts AccProofs IterModel IterProofs Sched ListUpd TableModel TableProofs PropertiesExp OwnModel PropertiesOwn KeepModel.
Import ListNotations.
Open Scope Z_scope.

(** ** specification *)
(** m2 is a later memory than m1 in which the first k cells may have been overwritten with anything *)
Definition later (k : nat) (m1 m2 : mem) : Prop :=
  (length m1 <= length m2)%nat /\ forall a, (k <= a < length m1)%nat -> nth_error m2 a = nth_error m1 a.

(** ** machinery *)
Lemma later_holds : forall k m1 m2 a v, later k m1 m2 -> (k <= a)%nat -> holds m1 a v -> holds m2 a v.
Proof. intros k m1 m2 a v [_ L] Ha H. unfold holds. rewrite L; [exact H|]. apply holds_lt in H. lia. Qed.
Lemma later_many : forall m m1 m2 ps vs, later (length m) m1 m2 -> many m m1 ps vs -> Forall2 (holds m2) ps vs.
Proof.
  intros m m1 m2 ps vs L (H & _ & F). induction H as [|p v ps vs Hp H IH]; [constructor|]. apply Forall_cons_iff in F. destruct F as [Fp F].
  constructor; [eapply later_holds; eassumption|now apply IH].
Qed.

Lemma pre_rows_ok : forall k m prev st s N n b sv nv, holds m prev b -> holds m s sv -> holds m N nv ->
  follows (length m) m (fun m' r v => many m m' (fst r) (fst v) /\ snd r = snd v) (pre_rows_mem k m prev n st s N) (Ret (pre_rows k b n st sv nv)).
Proof.
  induction k as [|k IH]; intros m prev st s N n b sv nv Hp Hs HN; cbn [pre_rows_mem pre_rows].
  - exists m, ([], []). split; [reflexivity|]. split; [apply keeps_refl|]. cbn. split; [|reflexivity]. split; [constructor|]. split; constructor.
  - destruct (AccumulateNew_ok m prev s N b sv nv Hp Hs HN) as (m1 & row & E & K1 & O). rewrite E. cbn [bind]. pose proof (proj1 K1) as B1. push K1.
    destruct (IH m1 row st s N (n + st) (AccumulateNew b sv nv) sv nv (proj1 O) Hs HN) as (m2 & [bs ns] & E2 & K2 & M2 & E3). rewrite E2. cbn [bind fst snd] in *.
    destruct (pre_rows k (AccumulateNew b sv nv) (n + st) st sv nv) as [vs us]. cbn [fst snd] in *. subst us.
    exists m2, (row :: bs, (n + st) :: ns). split; [reflexivity|]. split; [eapply keeps_trans; [lia|exact K1|eapply keeps_le; [|exact K2]; lia]|]. cbn [fst snd]. split; [|reflexivity].
    change (row :: bs) with ([row] ++ bs). change (AccumulateNew b sv nv :: vs) with ([AccumulateNew b sv nv] ++ vs).
    eapply (many_app m m1 m2); [lia|apply many_one; exact O|exact K2|exact M2].
Qed.
Lemma store_new : forall m x v, store (m ++ [x]) (length m) v = m ++ [v].
Proof.
  intros m x v. unfold store. rewrite firstn_app, firstn_all, Nat.sub_diag. cbn [firstn]. rewrite app_nil_r. f_equal.
  rewrite (skipn_all2 (n := Datatypes.S (length m))); [reflexivity|]. rewrite app_length. cbn. lia.
Qed.
Lemma GenPreTable_mem_ok : forall m base N b n bitLen ts, holds m base b -> holds m N n ->
  follows (length m) m (fun m' t v => many m m' (pc_base t) (pt_base v) /\ pc_n t = pt_n v) (GenPreTable_mem m base N bitLen ts) (GenPreTable b n bitLen ts).
Proof.
  intros m base N b n bitLen ts Hb Hn. unfold GenPreTable_mem, GenPreTable.
  destruct (bitLen <=? ts); [reflexivity|]. destruct (ts <? 0); [reflexivity|]. destruct (ts =? 0); [reflexivity|].
  unfold alloc. set (st := Z.quot bitLen ts). clearbody st. set (k := (Z.to_nat ts - 1)%nat). clearbody k.
  rewrite (load_holds _ _ _ (holds_keeps _ _ _ _ (keeps_alloc m 0) Hb)). cbn [bind]. rewrite store_new.
  pose proof (keeps_alloc m b) as K1. pose proof (holds_alloc m b) as H1. assert (O1 : one m (m ++ [b]) (length m) b) by (split; [exact H1|lia]). push K1. set (m1 := m ++ [b]) in *. pose proof (proj1 K1) as B1.
  assert (L1 : length m1 = Datatypes.S (length m)) by (unfold m1; rewrite app_length; cbn; lia). clearbody m1.
  rewrite (load_holds _ _ _ (holds_alloc m1 0)). cbn [bind]. rewrite store_new.
  set (sv := exp_recv 0 2 st 0). clearbody sv. pose proof (keeps_alloc m1 sv) as K2. pose proof (holds_alloc m1 sv) as H2. push K2. set (m2 := m1 ++ [sv]) in *. pose proof (proj1 K2) as B2. clearbody m2.
  destruct (pre_rows_ok k m2 (length m) st (length m1) N 0 b sv n H1 H2 Hn) as (m3 & [bs ns] & E & K3 & M & E3). rewrite E. cbn [bind fst snd] in *.
  destruct (pre_rows k b 0 st sv n) as [vs us]. cbn [fst snd] in *. subst us. pose proof (proj1 K3) as B3.
  assert (K12 : keeps (length m1) m1 m3) by (eapply keeps_trans; [lia|exact K2|eapply keeps_le; [|exact K3]; lia]).
  eexists m3, _. split; [reflexivity|]. split; [eapply keeps_trans; [lia|exact K1|eapply keeps_le; [|exact K12]; lia]|]. cbn [pc_base pt_base pc_n pt_n]. split; [|reflexivity].
  change (length m :: bs) with ([length m] ++ bs). change (b :: vs) with ([b] ++ vs).
  eapply (many_app m m1 m3); [lia|apply many_one; exact O1|exact K12|]. eapply many_from; [|exact M]. lia.
Qed.

Lemma table_rows_ok : forall k m prev opt n b o nv, holds m prev b -> holds m opt o -> holds m n nv ->
  follows (length m) m (many m) (table_rows_mem k m prev opt n) (Ret (table_rows k b o nv)).
Proof.
  induction k as [|k IH]; intros m prev opt n b o nv Hp Ho Hn; cbn [table_rows_mem table_rows].
  - exists m, []. split; [reflexivity|]. split; [apply keeps_refl|]. split; [constructor|]. split; constructor.
  - rewrite (load_holds _ _ _ Hp), (load_holds _ _ _ Ho), (load_holds _ _ _ Hn). unfold alloc. cbn [bind]. rewrite (load_holds _ _ _ (holds_alloc m 0)). cbn [bind]. rewrite store_new.
    set (v := exp_recv 0 b o nv). clearbody v. pose proof (keeps_alloc m v) as K1. pose proof (holds_alloc m v) as H1. push K1. set (m1 := m ++ [v]) in *. pose proof (proj1 K1) as B1. clearbody m1.
    destruct (IH m1 (length m) opt n v o nv H1 Ho Hn) as (m2 & rs & E & K2 & M). rewrite E. cbn [bind].
    exists m2, (length m :: rs). split; [reflexivity|]. split; [eapply keeps_trans; [lia|exact K1|eapply keeps_le; [|exact K2]; lia]|].
    change (length m :: rs) with ([length m] ++ rs). change (v :: table_rows k v o nv) with ([v] ++ table_rows k v o nv).
    eapply (many_app m m1 m2); [lia|apply many_one; split; [exact H1|lia]|exact K2|exact M].
Qed.
Lemma NewTable_mem_ok : forall m g n bound gv nv bv num c, holds m g gv -> holds m n nv -> holds m bound bv ->
  follows (length m) m (fun m' t v => many m m' (tc_table t) (t_table v) /\ tc_chunk t = t_chunk v /\ tc_g t = g /\ tc_n t = n /\ t_g v = gv /\ t_n v = nv)
    (NewTable_mem m g n bound num c) (NewTable gv nv bv num c).
Proof.
  intros m g n bound gv nv bv num c Hg Hn Hb. unfold NewTable_mem, NewTable. rewrite (load_holds _ _ _ Hb). cbn [bind].
  destruct (c =? 0)%nat; [reflexivity|]. destruct (Z.to_nat _) as [|k]; [reflexivity|]. unfold alloc.
  rewrite (load_holds _ _ _ (holds_keeps _ _ _ _ (keeps_alloc m 0) Hg)). cbn [bind]. rewrite store_new.
  pose proof (keeps_alloc m gv) as K1. pose proof (holds_alloc m gv) as H1. assert (O1 : one m (m ++ [gv]) (length m) gv) by (split; [exact H1|lia]). push K1. set (m1 := m ++ [gv]) in *. pose proof (proj1 K1) as B1. 
  assert (L1 : length m1 = Datatypes.S (length m)) by (unfold m1; rewrite app_length; cbn; lia). clearbody m1.
  set (o := 2 ^ (8 * Z.of_nat c)). clearbody o. pose proof (keeps_alloc m1 o) as K2. pose proof (holds_alloc m1 o) as H2. push K2. set (m2 := m1 ++ [o]) in *. pose proof (proj1 K2) as B2. clearbody m2.
  destruct (table_rows_ok k m2 (length m) (length m1) n gv o nv H1 H2 Hn) as (m3 & rs & E & K3 & M). rewrite E. cbn [bind]. pose proof (proj1 K3) as B3.
  assert (K12 : keeps (length m1) m1 m3) by (eapply keeps_trans; [lia|exact K2|eapply keeps_le; [|exact K3]; lia]).
  eexists m3, _. split; [reflexivity|]. split; [eapply keeps_trans; [lia|exact K1|eapply keeps_le; [|exact K12]; lia]|]. cbn [tc_table t_table tc_chunk t_chunk tc_g tc_n t_g t_n].
  split; [|repeat split]. change (length m :: rs) with ([length m] ++ rs). change (gv :: table_rows k gv o nv) with ([gv] ++ table_rows k gv o nv).
  eapply (many_app m m1 m3); [lia|apply many_one; exact O1|exact K12|]. eapply many_from; [|exact M]. lia.
Qed.

(** ** ComputeFromTable *)
Lemma index_app : forall (A : Type) (pre : list A) s rest, go_index (pre ++ s :: rest) (length pre) = Ret s.
Proof. intros A pre s rest. unfold go_index. rewrite nth_error_app2, Nat.sub_diag by lia. reflexivity. Qed.
Lemma split_ok : forall k i ns x m xCopy pre rest parts, length pre = (i - 1)%nat -> (1 <= i)%nat -> (k < length rest)%nat ->
  split_x k i ns x = Ret parts -> holds m xCopy x -> NoDup rest -> ~ In xCopy rest -> Forall (fun a => (a < length m)%nat) rest ->
  exists m', split_mem k i ns m xCopy (pre ++ rest) = Ret m' /\ (length m <= length m')%nat /\
    (forall a, a <> xCopy -> ~ In a rest -> (a < length m)%nat -> nth_error m' a = nth_error m a) /\
    Forall2 (holds m') (firstn (k + 1) rest) parts.
Proof.
  induction k as [|k IH]; intros i ns x m xCopy pre rest parts Lp Hi Lr E Hx ND NI F; cbn [split_x split_mem] in *;
    (destruct rest as [|s rest]; [cbn in Lr; lia|]); pose proof (holds_lt _ _ _ Hx) as Bx; apply Forall_cons_iff in F; destruct F as [Fs F].
  - injection E as <-. rewrite <- Lp, index_app. cbn [bind]. rewrite (load_holds _ _ _ Hx). cbn [bind].
    eexists. split; [reflexivity|]. rewrite store_length by exact Fs. split; [lia|]. split.
    + intros a _ Ha _. rewrite store_nth by exact Fs. destruct (Nat.eqb_spec a s) as [->|]; [|reflexivity]. exfalso. apply Ha. now left.
    + cbn [Nat.add firstn]. constructor; [now apply holds_store|constructor].
  - destruct (go_index ns i) as [ni| |]; try discriminate. cbn [bind] in E |- *. destruct (go_index ns (i - 1)) as [np| |]; try discriminate. cbn [bind] in E |- *.
    unfold alloc. set (d := exp_recv 0 2 (ni - np) 0) in *. clearbody d. destruct (go_mod x d) as [sub| |] eqn:Es; try discriminate. cbn [bind] in E.
    destruct (split_x k (Datatypes.S i) ns (rsh x (ni - np))) as [ps| |] eqn:Er; try discriminate. cbn [bind] in E. injection E as <-.
    rewrite <- Lp, index_app. cbn [bind].
    assert (L1 : length (m ++ [d]) = Datatypes.S (length m)) by (rewrite app_length; cbn; lia).
    rewrite (load_holds _ _ _ (holds_keeps _ _ _ _ (keeps_alloc m d) Hx)), (load_holds _ _ _ (holds_alloc m d)). cbn [bind]. rewrite Es. cbn [bind].
    set (m1 := store (m ++ [d]) s sub). assert (Lm1 : length m1 = Datatypes.S (length m)) by (unfold m1; rewrite store_length by lia; exact L1).
    apply NoDup_cons_iff in ND. destruct ND as [Ns ND].
    assert (Hx1 : holds m1 xCopy x).
    { unfold holds, m1. rewrite store_nth by lia. destruct (Nat.eqb_spec xCopy s) as [->|]; [exfalso; apply NI; now left|]. rewrite nth_error_app1 by lia. exact Hx. }
    rewrite (load_holds _ _ _ Hx1). cbn [bind]. set (m2 := store m1 xCopy (rsh x (ni - np))).
    assert (Lm2 : length m2 = Datatypes.S (length m)) by (unfold m2; rewrite store_length by lia; exact Lm1).
    destruct (IH (Datatypes.S i) ns (rsh x (ni - np)) m2 xCopy (pre ++ [s]) rest ps) as (m' & E' & L' & Fr & H').
    + rewrite app_length. cbn. lia.
    + lia.
    + cbn in Lr. lia.
    + exact Er.
    + apply holds_store. lia.
    + exact ND.
    + intros H. apply NI. now right.
    + eapply Forall_impl; [|exact F]. cbn. intros a Ha. lia.
    + rewrite <- app_assoc in E'. cbn [app] in E'. exists m'. split; [exact E'|]. split; [lia|].
      assert (Keep : forall a, a <> xCopy -> a <> s -> (a < length m)%nat -> nth_error m2 a = nth_error m a).
      { intros a N1 N2 La. unfold m2, m1. rewrite !store_nth by (rewrite ?store_length; lia).
        destruct (Nat.eqb_spec a xCopy); [contradiction|]. destruct (Nat.eqb_spec a s); [contradiction|]. now apply nth_error_app1. }
      split.
      * intros a N1 Ha La. rewrite Fr; [apply Keep; [exact N1|intros ->; apply Ha; now left|exact La]|exact N1|intros H; apply Ha; now right|lia].
      * cbn [Nat.add firstn]. constructor; [|exact H']. unfold holds. rewrite Fr; [|intros ->; apply NI; now left|exact Ns|lia].
        unfold m2. rewrite store_nth by lia. destruct (Nat.eqb_spec s xCopy) as [->|]; [exfalso; apply NI; now left|]. apply holds_store. lia.
Qed.

Lemma index_ok : forall m l vs i v, Forall2 (holds m) l vs -> go_index vs i = Ret v -> exists a, go_index l i = Ret a /\ holds m a v.
Proof.
  intros m l vs i v H. unfold go_index. revert i. induction H as [|a x l vs Ha H IH]; intros [|i] E; cbn in E; try discriminate.
  - injection E as <-. exists a. split; [reflexivity|exact Ha].
  - now apply IH.
Qed.
Lemma below_store : forall m prod v a x, (a < prod)%nat -> (prod < length m)%nat -> holds m a x -> holds (store m prod v) a x.
Proof. intros m prod v a x Ha Hp H. unfold holds. rewrite store_nth by exact Hp. destruct (Nat.eqb_spec a prod); [lia|exact H]. Qed.
Lemma all_below_store : forall m prod v l vs, Forall (fun a => (a < prod)%nat) l -> (prod < length m)%nat -> Forall2 (holds m) l vs -> Forall2 (holds (store m prod v)) l vs.
Proof.
  intros m prod v l vs F Hp H. induction H as [|a x l vs Ha H IH]; [constructor|]. apply Forall_cons_iff in F. destruct F as [Fa F].
  constructor; [now apply below_store|now apply IH].
Qed.
Lemma table_product_ok : forall subX parts i bases bs m N n prod p q, Forall2 (holds m) subX parts -> Forall2 (holds m) bases bs -> holds m N n -> holds m prod p ->
  Forall (fun a => (a < prod)%nat) subX -> Forall (fun a => (a < prod)%nat) bases -> (N < prod)%nat ->
  table_product i bs parts n p = Ret q ->
  exists m', table_product_mem i bases subX m N prod = Ret m' /\ keeps prod m m' /\ holds m' prod q.
Proof.
  induction subX as [|e subX IH]; intros parts i bases bs m N n prod p q Hs Hb HN Hp Fs Fb FN E; inversion Hs as [|? v ? parts' He Hs' E1 E2]; subst; cbn [table_product table_product_mem] in *.
  - injection E as <-. exists m. split; [reflexivity|]. split; [apply keeps_refl|exact Hp].
  - destruct (go_index bs i) as [b| |] eqn:Ei; try discriminate. cbn [bind] in E. destruct (index_ok _ _ _ _ _ Hb Ei) as (a & Ea & Ha). rewrite Ea. cbn [bind].
    destruct (AccumulateNew_ok m a e N b v n Ha He HN) as (m1 & temp & E1 & K1 & Ht & Lt). rewrite E1. cbn [bind]. pose proof (proj1 K1) as B1.
    pose proof (holds_lt _ _ _ Hp) as Bp. clear Ha He. push K1. rewrite (load_holds _ _ _ Hp), (load_holds _ _ _ Ht). cbn [bind].
    apply Forall_cons_iff in Fs. destruct Fs as [Fe Fs]. set (w := AccumulateNew b v n) in *. clearbody w.
    set (m2 := store m1 prod (p * w)). assert (L2 : length m2 = length m1) by (unfold m2; rewrite store_length by lia; reflexivity).
    assert (K2 : keeps prod m m2).
    { split; [lia|]. intros c Hc. unfold m2. rewrite store_nth by lia. destruct (Nat.eqb_spec c prod); [lia|]. apply (proj2 K1). lia. }
    assert (Hp2 : holds m2 prod (p * w)) by (apply holds_store; lia).
    apply (below_store m1 prod (p * w)) in HN; [|exact FN|lia]. apply (all_below_store m1 prod (p * w)) in Hs'; [|exact Fs|lia]. apply (all_below_store m1 prod (p * w)) in Hb; [|exact Fb|lia].
    fold m2 in HN, Hs', Hb. destruct (i =? 0)%nat.
    + destruct (IH _ _ _ _ _ _ _ _ _ _ Hs' Hb HN Hp2 Fs Fb FN E) as (m' & E' & [K3 K4] & H'). exists m'. split; [exact E'|]. split; [|exact H'].
      split; [lia|]. intros c Hc. rewrite K4 by exact Hc. now apply (proj2 K2).
    + rewrite (load_holds _ _ _ Hp2), (load_holds _ _ _ HN). cbn [bind]. destruct (go_mod (p * w) n) as [r| |]; try discriminate. cbn [bind] in E |- *.
      apply (below_store m2 prod r) in HN; [|exact FN|lia]. apply (all_below_store m2 prod r) in Hs'; [|exact Fs|lia]. apply (all_below_store m2 prod r) in Hb; [|exact Fb|lia].
      assert (Hp3 : holds (store m2 prod r) prod r) by (apply holds_store; lia).
      destruct (IH _ _ _ _ _ _ _ _ _ _ Hs' Hb HN Hp3 Fs Fb FN E) as (m' & E' & [K3 K4] & H'). exists m'. split; [exact E'|]. split; [|exact H'].
      rewrite store_length in K3 by lia. split; [lia|]. intros c Hc. rewrite K4 by exact Hc. rewrite store_nth by lia. destruct (Nat.eqb_spec c prod); [lia|]. now apply (proj2 K2).
Qed.

Lemma holds_all_lt : forall m l vs, Forall2 (holds m) l vs -> Forall (fun a => (a < length m)%nat) l.
Proof. intros m l vs H. induction H; constructor; [eapply holds_lt; eassumption|assumption]. Qed.
Lemma ComputeFromTable_mem_ok : forall m t x N T v n r, Forall2 (holds m) (pc_base t) (pt_base T) -> pc_n t = pt_n T -> holds m x v -> holds m N n ->
  ComputeFromTable T v n = Ret r ->
  exists m' a, ComputeFromTable_mem m t x N = Ret (m', a) /\ keeps (length m) m m' /\ one m m' a r.
Proof.
  intros m t x N T v n r Hb En Hx HN E. unfold ComputeFromTable in E. unfold ComputeFromTable_mem. rewrite En, (@Forall2_length _ _ _ _ _ Hb).
  destruct (negb _); [discriminate|]. destruct (_ <? 1)%nat; [discriminate|]. rewrite (load_holds _ _ _ Hx). cbn [bind]. destruct (v <? 1); [discriminate|].
  unfold alloc. rewrite (load_holds _ _ _ (holds_keeps _ _ _ _ (keeps_alloc m 0) Hx)). cbn [bind]. rewrite store_new.
  pose proof (keeps_alloc m v) as K1. pose proof (holds_alloc m v) as H1. set (m1 := m ++ [v]) in *. pose proof (proj1 K1) as B1.
  assert (L1 : length m1 = Datatypes.S (length m)) by (unfold m1; rewrite app_length; cbn; lia). clearbody m1.
  set (k := find_iCounter (pt_n T) (bit_len v)) in *. clearbody k. destruct (split_x k 1 (pt_n T) v) as [parts| |] eqn:Es; try discriminate. cbn [bind] in E.
  rewrite alloc_all_eq, repeat_length. set (zs := repeat 0 (k + 2)). assert (Lz : length zs = (k + 2)%nat) by apply repeat_length. clearbody zs.
  pose proof (keeps_app m1 zs) as K2. apply (holds_keeps _ _ _ _ K2) in H1. set (m2 := m1 ++ zs) in *. assert (L2 : length m2 = (length m1 + (k + 2))%nat) by (unfold m2; rewrite app_length, Lz; reflexivity). clearbody m2.
  set (subX := seq (length m1) (k + 2)).
  destruct (split_ok k 1 (pt_n T) v m2 (length m) [] subX parts) as (m3 & E3 & L3 & Fr & Hp).
  - reflexivity.
  - lia.
  - unfold subX. rewrite seq_length. lia.
  - exact Es.
  - exact H1.
  - apply seq_NoDup.
  - unfold subX. rewrite in_seq. lia.
  - apply Forall_forall. intros a Ha. apply in_seq in Ha. lia.
  - cbn [app] in E3. rewrite E3. cbn [bind].
    assert (K3 : keeps (length m) m2 m3).
    { split; [exact L3|]. intros a Ha. apply Fr; [lia|unfold subX; rewrite in_seq; lia|lia]. }
    assert (KK : keeps (length m) m m3).
    { split; [lia|]. intros a Ha. rewrite (proj2 K3) by exact Ha. rewrite (proj2 K2) by lia. apply (proj2 K1). exact Ha. }
    rewrite store_new. pose proof (keeps_alloc m3 1) as K4. pose proof (holds_alloc m3 1) as H4.
    assert (L4 : length (m3 ++ [1%Z]) = Datatypes.S (length m3)) by (rewrite app_length; cbn; lia). apply (all_keeps _ _ _ _ K4) in Hp.
    assert (old : forall a w, holds m a w -> holds (m3 ++ [1]) a w) by (intros a w Ha; apply (holds_keeps m3); [apply keeps_alloc|]; eapply holds_keeps; eassumption).
    set (m4 := m3 ++ [1]) in *. clearbody m4.
    match type of Hp with Forall2 _ ?l _ => assert (Fp : Forall (fun a => (a < length m3)%nat) l) end.
    { apply Forall_forall. intros a Ha. assert (I : In a subX) by (rewrite <- (firstn_skipn (k + 1) subX); apply in_or_app; now left). apply in_seq in I. lia. }
    assert (Hb4 : Forall2 (holds m4) (pc_base t) (pt_base T)) by (clear - Hb old; induction Hb; constructor; auto).
    pose proof (holds_all_lt _ _ _ Hb) as Fb. pose proof (holds_lt _ _ _ HN) as FN.
    destruct (table_product_ok _ _ 0 _ _ m4 N n (length m3) 1 r Hp Hb4 (old _ _ HN) H4 Fp) as (m5 & E5 & [L5 K5] & H5).
    + eapply Forall_impl; [|exact Fb]. cbn. intros a Ha. pose proof (proj1 KK). lia.
    + pose proof (proj1 KK). lia.
    + exact E.
    + rewrite E5. cbn [bind]. exists m5, (length m3). split; [reflexivity|]. pose proof (proj1 KK). split; [|split; [exact H5|lia]].
      split; [lia|]. intros a Ha. rewrite K5 by lia. rewrite (proj2 K4) by lia. now apply (proj2 KK).
Qed.

(** ** C122 *)
(** GenPreTable copies what it keeps: whatever is later written to the numbers that existed when the table was made (the
    base, the modulus, anything else of the caller), both computations from the table give the power of the original base.
    x and N' are any cells, N' holding the modulus of the table. *)
Theorem C122_pretable : forall m base N b n bitLen tableSize, holds m base b -> holds m N n -> 1 < n -> 0 < tableSize < bitLen ->
  exists m1 t, GenPreTable_mem m base N bitLen tableSize = Ret (m1, t) /\ extends m m1 /\ private m m1 (pc_base t) /\
  forall m2 x N' e, later (length m) m1 m2 -> holds m2 x e -> holds m2 N' n ->
    (0 < e -> exists m3 r, ComputeFromTable_mem m2 t x N' = Ret (m3, r) /\ extends m2 m3 /\ private m2 m3 [r] /\ holds m3 r (b ^ e mod n)) /\
    (e <= 0 -> ComputeFromTable_mem m2 t x N' = Panic) /\
    (0 < e -> exists T s0, pretable_at m2 t = Ret T /\ cp_init T e n = Ret s0 /\ always_ends cp_step cp_ret (fun _ => false) s0 (fun v => v = b ^ e mod n)).
Proof.
  intros m base N b n bitLen ts Hb Hn Pn Pt.
  destruct (GenPreTable_rows b n bitLen ts ltac:(lia) Pt) as (T & ET & _).
  pose proof (GenPreTable_mem_ok m base N b n bitLen ts Hb Hn) as F. rewrite ET in F. destruct F as (m1 & t & E & K & M & En).
  exists m1, t. split; [exact E|]. split; [now apply keeps_extends|]. split; [eapply many_private; eassumption|].
  intros m2 x N' e L Hx HN. pose proof (later_many _ _ _ _ _ L M) as Hrows.
  destruct (C29_ComputeFromTable b n bitLen ts T e Pn ET) as [Pos Neg]. split; [|split].
  - intros He. destruct (ComputeFromTable_mem_ok m2 t x N' T e n _ Hrows En Hx HN (Pos He)) as (m3 & r & E3 & K3 & O3).
    exists m3, r. split; [exact E3|]. split; [now apply keeps_extends|]. split; [eapply many_private; [exact K3|apply many_one; exact O3]|exact (proj1 O3)].
  - intros He. pose proof (GenPreTable_ok b n bitLen ts T ltac:(lia) ET) as (L1 & L2 & _). unfold ComputeFromTable_mem.
    rewrite En, (@Forall2_length _ _ _ _ _ Hrows), L1, Nat.eqb_refl. cbn [negb].
    replace (length (pt_n T) <? 1)%nat with false by (symmetry; apply Nat.ltb_ge; lia). rewrite (load_holds _ _ _ Hx). cbn [bind].
    now replace (e <? 1) with true by (symmetry; apply Z.ltb_lt; lia).
  - intros He. destruct (C30_ComputeFromTableParallel b n bitLen ts T e Pn ET He) as (s0 & E0 & A). exists T, s0. split; [|split; [exact E0|exact A]].
    unfold pretable_at. rewrite (load_all_spec _ _ _ Hrows). cbn [bind]. rewrite En. now destruct T.
Qed.
(** The base is overwritten after the table is made and the modulus moved to another cell; the exponent is the modulus
    itself, then a row of the table. *)
Example C122_pretable_case : exists m1 t m2 m3 r m4 s, GenPreTable_mem [3; 1000003] 0%nat 1%nat 20 4 = Ret (m1, t) /\ m2 = store (store (m1 ++ [1000003]) 0%nat 99) 1%nat 98 /\
  ComputeFromTable_mem m2 t 7%nat 7%nat = Ret (m3, r) /\ holds m3 r (powmod 3 1000003 1000003) /\
  ComputeFromTable_mem m3 t 4%nat 7%nat = Ret (m4, s) /\ holds m4 s (powmod 3 (powmod 3 32 1000003) 1000003).
Proof.
  do 7 eexists. split; [vm_compute; reflexivity|]. split; [reflexivity|]. split; [vm_compute; reflexivity|]. split; [vm_compute; reflexivity|].
  split; [vm_compute; reflexivity|]. vm_compute. reflexivity.
Qed.

(** Full statement for the other kind of table: after NewTable, whatever is later written to the numbers that existed when
    the table was made, Compute returns the power of the original base modulo the original modulus. It is false: the table
    keeps the caller's pointer to the modulus. After the modulus is overwritten the result fits neither modulus. *)
Theorem C122_table_refuted : exists m g n bound gv nv bv num c m1 t m2 nv2 T x v, 
  holds m g gv /\ holds m n nv /\ holds m bound bv /\ 1 < nv /\ NewTable_mem m g n bound num c = Ret (m1, t) /\
  0 < x < 2 ^ (8 * Z.of_nat c * (bit_len bv * Z.of_nat num / (8 * Z.of_nat c))) /\
  later (length m) m1 m2 /\ holds m2 n nv2 /\ 1 < nv2 /\ table_at m2 t = Ret T /\
  can_return t_step t_ret (t_init T x 1) v /\ v <> gv ^ x mod nv /\ v <> gv ^ x mod nv2.
Proof.
  exists [3; 101; 255], 0%nat, 1%nat, 2%nat, 3, 101, 255, 2%nat, 1%nat. do 2 eexists. exists (store [3; 101; 255; 3; 256; 79] 1%nat 100), 100. eexists. exists 257, 37.
  split; [reflexivity|]. split; [reflexivity|]. split; [reflexivity|]. split; [lia|]. split; [vm_compute; reflexivity|]. split; [vm_compute; split; congruence|].
  split; [split; [vm_compute; lia|]|].
  { intros a Ha. cbn [length] in Ha. destruct a as [|[|[|a]]]; [lia|lia|lia|]. reflexivity. }
  split; [reflexivity|]. split; [lia|]. split; [vm_compute; reflexivity|].
  split; [|split; vm_compute; discriminate].
  eexists [TFeed; TFeed; TTake 0; TGive 0; TColl; TTake 0; TGive 0; TColl; TResult], _. split; [vm_compute; reflexivity|reflexivity].
Qed.
(** What holds: only the modulus must stay. The base and everything else may change. *)
Theorem C122_table_partial : forall m g n bound gv nv bv num c, holds m g gv -> holds m n nv -> holds m bound bv -> 1 < nv ->
  (c <> 0)%nat -> 8 * Z.of_nat c <= bit_len bv * Z.of_nat num ->
  exists m1 t, NewTable_mem m g n bound num c = Ret (m1, t) /\ extends m m1 /\ private m m1 (tc_table t) /\
  forall m2, later (length m) m1 m2 -> holds m2 n nv ->
    exists T, table_at m2 t = Ret T /\
    forall x numRoutine, 0 < x < 2 ^ (8 * Z.of_nat c * (bit_len bv * Z.of_nat num / (8 * Z.of_nat c))) -> (1 <= numRoutine)%nat ->
      always_ends t_step t_ret t_idle (t_init T x numRoutine) (fun v => v = gv ^ x mod nv).
Proof.
  intros m g n bound gv nv bv num c Hg Hn Hb Pn Pc Pl. pose proof (NewTable_mem_ok m g n bound gv nv bv num c Hg Hn Hb) as F.
  destruct (NewTable gv nv bv num c) as [T0| |] eqn:ET.
  2,3: exfalso; unfold NewTable in ET; apply Nat.eqb_neq in Pc; rewrite Pc in ET; apply Nat.eqb_neq in Pc; rewrite (Z.mul_comm (Z.of_nat c) 8) in ET;
    assert (1 <= bit_len bv * Z.of_nat num / (8 * Z.of_nat c)) by (apply Z.div_le_lower_bound; lia);
    destruct (Z.to_nat (bit_len bv * Z.of_nat num / (8 * Z.of_nat c))) eqn:Ek; [lia|discriminate ET].
  destruct F as (m1 & t & E & K & M & Ec & Eg & En & Tg & Tn). destruct (NewTable_ok gv nv bv num c T0 ltac:(lia) ET) as (Hok & Ec0 & El).
  exists m1, t. split; [exact E|]. split; [now apply keeps_extends|]. split; [eapply many_private; eassumption|].
  intros m2 L Hn2. pose proof (later_many _ _ _ _ _ L M) as Hrows.
  assert (Bg : (g < length m2)%nat) by (apply holds_lt in Hg; pose proof (proj1 K); pose proof (proj1 L); lia).
  destruct (nth_error m2 g) as [g2|] eqn:E2; [|apply nth_error_None in E2; lia].
  exists {| t_g := g2; t_n := nv; t_chunk := c; t_table := t_table T0 |}. split.
  { unfold table_at. rewrite Eg, En, (load_holds m2 g g2 E2), (load_holds _ _ _ Hn2), (load_all_spec _ _ _ Hrows). cbn [bind]. now rewrite Ec, Ec0. }
  intros x R [Hx Hb2] HR. apply Compute_always; cbn [t_chunk t_table]; try assumption.
  - destruct Hok as (H1 & H2 & H3 & H4). unfold tbl_ok. cbn [t_n t_chunk t_table]. rewrite Ec0 in H2, H4. split; [reflexivity|]. split; [exact H2|]. split; [exact H3|exact H4].
  - rewrite El, Z2Nat.id; [exact Hb2|]. apply Z.div_pos; [|lia]. apply Z.mul_nonneg_nonneg; [apply bit_len_nonneg|lia].
Qed.
(** the base and the bound are overwritten after the table is made *)
Example C122_table_case : exists m1 t m2 T s, NewTable_mem [3; 101; 255] 0%nat 1%nat 2%nat 2 1 = Ret (m1, t) /\ m2 = store (store m1 0%nat 99) 2%nat 0 /\ table_at m2 t = Ret T /\
  run t_step (Ret (t_init T 257 2)) [TFeed; TFeed; TTake 1; TTake 0; TGive 0; TGive 1; TColl; TColl; TResult] = Some (Ret s) /\ t_ret s = Some (powmod 3 257 101).
Proof. do 5 eexists. split; [vm_compute; reflexivity|]. split; [reflexivity|]. split; [vm_compute; reflexivity|]. split; [vm_compute; reflexivity|]. vm_compute. reflexivity. Qed.

Print Assumptions C122_pretable.
Print Assumptions C122_table_refuted.
Print Assumptions C122_table_partial.
