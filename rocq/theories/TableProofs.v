(** Proofs about the precomputed tables. *)
From Coq Require Import ZArith Bool Lia String Ascii List Arith.
From Verif Require Import GoBig GoBigFacts StrFacts AccModel AccFacts Sched ListUpd TableModel.
Import ListNotations.
Open Scope Z_scope.

(** lia without the hypotheses about powers, which only slow it down *)
Ltac slia :=
  repeat match goal with x := _ |- _ => clearbody x end;
  repeat match goal with H : context [Z.pow] |- _ => clear H end; lia.

Lemma exp_recv_2 : forall z d, 0 <= d -> exp_recv z 2 d 0 = 2 ^ d.
Proof.
  intros z d Hd. unfold exp_recv, big_exp. cbn [Z.eqb]. destruct (Z.leb_spec d 0); [|reflexivity].
  replace d with 0 by lia. reflexivity.
Qed.
Lemma go_mod_pos : forall a n, 0 < n -> go_mod a n = Ret (a mod n).
Proof.
  intros a n Hn. unfold go_mod. replace (n =? 0) with false by (symmetry; apply Z.eqb_neq; lia).
  unfold emod. now rewrite Z.abs_eq by lia.
Qed.
Lemma go_index_nth : forall (l : list Z) i, (i < length l)%nat -> go_index l i = Ret (nth i l 0).
Proof.
  intros l i H. unfold go_index. rewrite (nth_error_nth' l 0 H). reflexivity.
Qed.

(** ** GenPreTable *)
Lemma pre_rows_spec : forall B N d, 0 < N -> 0 <= d -> forall k cur n bs ns, 0 <= n ->
  cur mod N = B ^ (2 ^ n) mod N ->
  pre_rows k cur n d (2 ^ d) N = (bs, ns) ->
  length bs = k /\ length ns = k /\
  forall i, (i < k)%nat -> nth i bs 0 = B ^ (2 ^ (n + (Z.of_nat i + 1) * d)) mod N /\
                           nth i ns 0 = n + (Z.of_nat i + 1) * d.
Proof.
  intros B N d HN Hd. induction k as [|k IH]; intros cur n bs ns Hn Hcur E; cbn [pre_rows] in E.
  - injection E as <- <-. repeat split; auto; lia.
  - destruct (pre_rows k (AccumulateNew cur (2 ^ d) N) (n + d) d (2 ^ d) N) as [bs' ns'] eqn:E'.
    injection E as <- <-.
    assert (Hrow : AccumulateNew cur (2 ^ d) N = B ^ (2 ^ (n + d)) mod N).
    { assert (0 <= 2 ^ d) by (apply Z.pow_nonneg; lia). assert (0 <= 2 ^ n) by (apply Z.pow_nonneg; lia).
      rewrite AccumulateNew_spec by assumption. rewrite <- pow_mod_idem, Hcur, pow_mod_idem by assumption.
      rewrite <- Z.pow_mul_r by assumption. now rewrite <- Z.pow_add_r by lia. }
    destruct (IH _ _ _ _ (Z.add_nonneg_nonneg _ _ Hn Hd) (eq_trans (f_equal (fun v => v mod N) Hrow) (Zmod_mod _ _)) E') as (L1 & L2 & H).
    split; [cbn [length]; now rewrite L1|]. split; [cbn [length]; now rewrite L2|].
    intros [|i] Hi; cbn [nth].
    + rewrite Hrow. replace (n + (Z.of_nat 0 + 1) * d) with (n + d) by lia. auto.
    + destruct (H i ltac:(lia)) as [H1 H2]. rewrite H1, H2.
      replace (n + (Z.of_nat (S i) + 1) * d) with (n + d + (Z.of_nat i + 1) * d) by lia. auto.
Qed.

(** a table as ComputeFromTable needs it *)
Definition table_ok (B N : Z) (t : PreTable) : Prop :=
  length (pt_base t) = length (pt_n t) /\ (1 <= length (pt_n t))%nat /\ nth 0 (pt_n t) 0 = 0 /\
  (forall i, (i < length (pt_n t))%nat -> 0 <= nth i (pt_n t) 0 /\
     nth i (pt_base t) 0 mod N = B ^ (2 ^ nth i (pt_n t) 0) mod N) /\
  (forall i, (S i < length (pt_n t))%nat -> nth i (pt_n t) 0 <= nth (S i) (pt_n t) 0).

Lemma GenPreTable_rows : forall B N bitLen ts, 0 < N -> 0 < ts < bitLen ->
  exists t, GenPreTable B N bitLen ts = Ret t /\
    length (pt_base t) = Z.to_nat ts /\ length (pt_n t) = Z.to_nat ts /\
    nth 0 (pt_base t) 0 = B /\
    (forall i, (i < Z.to_nat ts)%nat -> nth i (pt_n t) 0 = Z.of_nat i * (bitLen / ts)) /\
    (forall i, (0 < i < Z.to_nat ts)%nat -> nth i (pt_base t) 0 = B ^ (2 ^ (Z.of_nat i * (bitLen / ts))) mod N).
Proof.
  intros B N bitLen ts HN Hts. unfold GenPreTable.
  replace (bitLen <=? ts) with false by (symmetry; apply Z.leb_gt; lia).
  replace (ts <? 0) with false by (symmetry; apply Z.ltb_ge; lia).
  replace (ts =? 0) with false by (symmetry; apply Z.eqb_neq; lia).
  rewrite Z.quot_div_nonneg by lia. set (d := bitLen / ts).
  assert (Hd : 0 <= d) by (apply Z.div_pos; lia).
  rewrite exp_recv_2 by assumption.
  destruct (pre_rows (Z.to_nat ts - 1) B 0 d (2 ^ d) N) as [bs ns] eqn:E.
  destruct (pre_rows_spec B N d HN Hd _ _ _ _ _ (Z.le_refl 0) ltac:(now rewrite Z.pow_0_r, Z.pow_1_r) E) as (L1 & L2 & H).
  eexists. split; [reflexivity|]. cbn [pt_base pt_n length nth]. repeat split; try lia.
  - intros [|i] Hi; [reflexivity|]. destruct (H i ltac:(lia)) as [_ ->]. lia.
  - intros [|i] Hi; [lia|]. destruct (H i ltac:(lia)) as [-> _].
    replace (0 + (Z.of_nat i + 1) * d) with (Z.of_nat (S i) * d) by lia. reflexivity.
Qed.

Lemma GenPreTable_panic : forall B N bitLen ts, bitLen <= ts \/ ts <= 0 -> GenPreTable B N bitLen ts = Panic.
Proof.
  intros B N bitLen ts H. unfold GenPreTable. destruct (Z.leb_spec bitLen ts); [reflexivity|].
  destruct (Z.ltb_spec ts 0); [reflexivity|]. destruct (Z.eqb_spec ts 0); [reflexivity|]. lia.
Qed.

Lemma GenPreTable_ok : forall B N bitLen ts t, 0 < N -> GenPreTable B N bitLen ts = Ret t -> table_ok B N t.
Proof.
  intros B N bitLen ts t HN E.
  destruct (Z_lt_le_dec 0 ts) as [H1|H1]; [|rewrite GenPreTable_panic in E by lia; discriminate].
  destruct (Z_lt_le_dec ts bitLen) as [H2|H2]; [|rewrite GenPreTable_panic in E by lia; discriminate].
  destruct (GenPreTable_rows B N bitLen ts HN (conj H1 H2)) as (t' & E' & L1 & L2 & H0 & Hn & Hb).
  rewrite E in E'. injection E' as <-.
  assert (Hd : 0 <= bitLen / ts) by (apply Z.div_pos; lia).
  unfold table_ok. rewrite L1, L2. repeat split; try lia.
  - now rewrite Hn by lia.
  - rewrite Hn by assumption. apply Z.mul_nonneg_nonneg; lia.
  - destruct i as [|i].
    + rewrite H0, Hn by assumption. cbn [Z.of_nat]. now rewrite Z.mul_0_l, Z.pow_0_r, Z.pow_1_r.
    + rewrite Hb, Hn by lia. apply Zmod_mod.
  - intros i Hi. rewrite !Hn by lia. apply Z.mul_le_mono_nonneg_r; lia.
Qed.

(** ** splitting the exponent *)
Fixpoint wsum (ns : list Z) (i : nat) (subs : list Z) : Z :=
  match subs with [] => 0 | e :: r => e * 2 ^ nth i ns 0 + wsum ns (S i) r end.

Lemma split_x_spec : forall ns, 
  (forall i, (i < length ns)%nat -> 0 <= nth i ns 0) ->
  (forall i, (S i < length ns)%nat -> nth i ns 0 <= nth (S i) ns 0) ->
  forall k i x, (i + k < length ns)%nat -> 0 <= x ->
  exists subs, split_x k (S i) ns x = Ret subs /\ length subs = S k /\ Forall (fun e => 0 <= e) subs /\
    wsum ns i subs = x * 2 ^ nth i ns 0.
Proof.
  intros ns Hpos Hmono. induction k as [|k IH]; intros i x Hi Hx; cbn [split_x].
  - exists [x]. cbn [wsum length]. repeat split; auto. slia.
  - replace (S i - 1)%nat with i by slia. rewrite !go_index_nth by slia. cbn [bind].
    pose proof (Hmono i ltac:(slia)) as Hm. pose proof (Hpos i ltac:(slia)) as Hp. set (d := nth (S i) ns 0 - nth i ns 0).
    assert (Hd : 0 <= d) by (unfold d; slia).
    assert (P : 0 < 2 ^ d) by (apply Z.pow_pos_nonneg; slia).
    rewrite exp_recv_2 by assumption. rewrite go_mod_pos by assumption. cbn [bind].
    unfold rsh. replace (d <? 0) with false by (symmetry; apply Z.ltb_ge; slia).
    destruct (IH (S i) (x / 2 ^ d) ltac:(slia) ltac:(apply Z.div_pos; slia)) as (subs & E & L & F & W).
    rewrite E. cbn [bind]. exists (x mod 2 ^ d :: subs). split; [reflexivity|].
    split; [cbn [length]; slia|]. split; [constructor; [apply Z.mod_pos_bound; assumption|assumption]|].
    cbn [wsum]. rewrite W. replace (nth (S i) ns 0) with (d + nth i ns 0) by (unfold d; slia).
    rewrite Z.pow_add_r by slia. rewrite (Z.div_mod x (2 ^ d)) at 3 by slia. ring.
Qed.

Lemma find_iCounter_lt : forall ns len, (1 <= length ns)%nat -> (find_iCounter ns len < length ns)%nat.
Proof.
  intros ns len H. unfold find_iCounter.
  assert (L : (first_reaching ns len <= length ns)%nat).
  { clear H. induction ns as [|n ns IH]; cbn; [slia|]. destruct (n >=? len); slia. }
  destruct (Nat.eqb_spec (first_reaching ns len) (length ns)); slia.
Qed.

Lemma wsum_nonneg : forall ns subs i, Forall (fun e => 0 <= e) subs -> 0 <= wsum ns i subs.
Proof.
  induction subs as [|e r IH]; intros i H; cbn [wsum]; [slia|]. inversion_clear H.
  specialize (IH (S i) H1). assert (0 <= 2 ^ nth i ns 0) by (apply Z.pow_nonneg; slia). nia.
Qed.

(** the power contributed by row i *)
Lemma row_power : forall B N t i e, 0 < N -> table_ok B N t -> (i < length (pt_n t))%nat -> 0 <= e ->
  nth i (pt_base t) 0 ^ e mod N = B ^ (e * 2 ^ nth i (pt_n t) 0) mod N.
Proof.
  intros B N t i e HN (L & L1 & H0 & Hr & Hm) Hi He. destruct (Hr i Hi) as [Hn Hb].
  rewrite <- pow_mod_idem, Hb, pow_mod_idem by assumption.
  rewrite <- Z.pow_mul_r by (try assumption; apply Z.pow_nonneg; slia). now rewrite Z.mul_comm.
Qed.

Lemma table_product_spec : forall B N t, 0 < N -> table_ok B N t -> forall subs i prod,
  (i + length subs <= length (pt_n t))%nat -> Forall (fun e => 0 <= e) subs ->
  0 <= prod < N -> (i = 0%nat -> prod * 1 = 1) ->
  table_product i (pt_base t) subs N prod = Ret ((prod * B ^ wsum (pt_n t) i subs) mod N).
Proof.
  intros B N t HN Hok. pose proof Hok as (L & L1 & H0 & Hr & Hm).
  induction subs as [|e r IH]; intros i prod Hi Hs Hp H1; cbn [table_product wsum].
  - now rewrite Z.pow_0_r, Z.mul_1_r, Z.mod_small.
  - cbn [length] in Hi. inversion_clear Hs as [|? ? He Hr'].
    rewrite go_index_nth by slia. cbn [bind]. rewrite AccumulateNew_spec by assumption.
    rewrite (row_power B N t i e HN Hok) by (assumption || slia).
    set (a := e * 2 ^ nth i (pt_n t) 0). set (w := wsum (pt_n t) (S i) r).
    assert (Ha : 0 <= a) by (apply Z.mul_nonneg_nonneg; [assumption|apply Z.pow_nonneg; slia]).
    assert (Hw : 0 <= w) by now apply wsum_nonneg.
    assert (G : forall q, q mod N = (prod * B ^ a) mod N -> (q * B ^ w) mod N = (prod * B ^ (a + w)) mod N).
    { intros q Hq. rewrite <- mul_mod_idem_l, Hq, mul_mod_idem_l, Z.pow_add_r by assumption. f_equal. ring. }
    destruct (Nat.eqb_spec i 0) as [->|Hne].
    + assert (Hrange : 0 <= prod * (B ^ a mod N) < N).
      { replace prod with 1 by (specialize (H1 eq_refl); slia). rewrite Z.mul_1_l. now apply Z.mod_pos_bound. }
      rewrite (IH 1%nat _ ltac:(slia) Hr' Hrange ltac:(discriminate)).
      f_equal. apply G. now rewrite mul_mod_idem_r.
    + rewrite go_mod_pos by assumption. cbn [bind].
      rewrite (IH (S i) _ ltac:(slia) Hr' (Z.mod_pos_bound _ _ HN) ltac:(discriminate)).
      f_equal. apply G. now rewrite Zmod_mod, mul_mod_idem_r.
Qed.

Lemma ComputeFromTable_ok : forall B N t x, 1 < N -> table_ok B N t -> 0 < x ->
  ComputeFromTable t x N = Ret (B ^ x mod N).
Proof.
  intros B N t x HN Hok Hx. pose proof Hok as (L & L1 & H0 & Hr & Hm). unfold ComputeFromTable.
  rewrite L, Nat.eqb_refl. cbn [negb].
  replace (length (pt_n t) <? 1)%nat with false by (symmetry; apply Nat.ltb_ge; slia).
  replace (x <? 1) with false by (symmetry; apply Z.ltb_ge; slia).
  pose proof (find_iCounter_lt (pt_n t) (bit_len x) L1) as Hc. set (ic := find_iCounter (pt_n t) (bit_len x)) in *.
  destruct (split_x_spec (pt_n t) (fun i Hi => proj1 (Hr i Hi)) Hm ic 0 x ltac:(slia) ltac:(slia)) as (subs & E & Ls & F & W).
  rewrite E. cbn [bind]. rewrite (table_product_spec B N t ltac:(slia) Hok) by (assumption || slia).
  rewrite W, H0, Z.pow_0_r, !Z.mul_1_r, Z.mul_1_l. reflexivity.
Qed.

(** ** the parallel version *)
Lemma start_all_spec : forall B N t, 0 < N -> table_ok B N t -> forall subs i,
  (i + length subs <= length (pt_n t))%nat -> Forall (fun e => 0 <= e) subs ->
  exists gs, start_all i (pt_base t) subs = Ret gs /\ length gs = length subs /\
    Forall (fun p => 0 <= snd p) gs /\
    zprod (fun p : Z * Z => exp_recv 0 (fst p) (snd p) N) gs mod N = B ^ wsum (pt_n t) i subs mod N.
Proof.
  intros B N t HN Hok. pose proof Hok as (L & L1 & H0 & Hr & Hm).
  induction subs as [|e r IH]; intros i Hi Hs; cbn [start_all wsum].
  - exists []. repeat split; auto.
  - cbn [length] in Hi. inversion_clear Hs as [|? ? He Hr'].
    rewrite go_index_nth by slia. cbn [bind]. destruct (IH (S i) ltac:(slia) Hr') as (gs & E & Lg & F & P).
    rewrite E. cbn [bind]. eexists. split; [reflexivity|]. split; [cbn [length]; slia|]. split; [constructor; [exact He|exact F]|].
    unfold zprod in *. cbn [fold_right fst snd]. rewrite exp_recv_nonneg by assumption.
    rewrite <- mul_mod_idem_r, P, mul_mod_idem_r, (row_power B N t i e HN Hok), mul_mod_idem_l by (assumption || slia).
    rewrite Z.pow_add_r; [reflexivity| |now apply wsum_nonneg].
    apply Z.mul_nonneg_nonneg; [assumption|apply Z.pow_nonneg; slia].
Qed.

Definition gval (N : Z) (o : option (Z * Z)) : Z :=
  match o with Some (b, e) => exp_recv 0 b e N | None => 1 end.
Definition gpend (o : option (Z * Z)) : nat := match o with Some _ => 1 | None => 0 end.

Definition cp_inv (N V : Z) (s : cpstate) : Prop :=
  cp_N s = N /\ cp_total s = (cp_cap s + 1)%nat /\
  (cp_prod s * zprod (fun v => v) (cp_chan s) * zprod (gval N) (cp_gor s)) mod N = V mod N /\
  (cp_i s + length (cp_chan s) + nsum gpend (cp_gor s) = cp_total s)%nat /\
  (0 <= cp_prod s < N) /\
  match cp_ret s with
  | None => cp_closed s = false /\ (cp_i s < cp_total s)%nat
  | Some v => v = cp_prod s /\ cp_i s = cp_total s
  end.
Definition cp_measure (s : cpstate) : nat := 2 * nsum gpend (cp_gor s) + length (cp_chan s).

Lemma cp_receive_inv : forall N V s gor chan v, 1 < N ->
  cp_N s = N -> cp_total s = (cp_cap s + 1)%nat -> cp_ret s = None -> cp_closed s = false ->
  (cp_i s + 1 + length chan + nsum gpend gor = cp_total s)%nat ->
  (cp_prod s * v * zprod (fun v => v) chan * zprod (gval N) gor) mod N = V mod N ->
  exists s', cp_receive s gor chan v = Ret s' /\ cp_inv N V s' /\ cp_gor s' = gor /\ cp_chan s' = chan.
Proof.
  intros N V s gor chan v HN E1 E2 Er Ec Hcnt Hp. unfold cp_receive. rewrite E1, go_mod_pos by slia. cbn [bind].
  eexists. split; [reflexivity|]. cbn [cp_gor cp_chan]. split; [|auto].
  unfold cp_inv. cbn [cp_N cp_total cp_cap cp_prod cp_chan cp_gor cp_i cp_ret cp_closed].
  repeat split; auto.
  - rewrite <- !Z.mul_assoc, mul_mod_idem_l. rewrite <- Hp. f_equal. ring.
  - slia.
  - apply Z.mod_pos_bound; slia.
  - apply Z.mod_pos_bound; slia.
  - destruct (Nat.eqb_spec (S (cp_i s)) (cp_total s)); cbn [orb].
    + auto.
    + split; [assumption|slia].
Qed.

Lemma zprod_cons : forall A (f : A -> Z) a l, zprod f (a :: l) = f a * zprod f l.
Proof. reflexivity. Qed.
Lemma zprod_nil : forall A (f : A -> Z), zprod f [] = 1.
Proof. reflexivity. Qed.

Lemma cp_inv_step : forall N V, 1 < N -> forall s c st, cp_inv N V s -> cp_step s c = Some st ->
  exists s', st = Ret s' /\ cp_inv N V s' /\ (cp_measure s' < cp_measure s)%nat.
Proof.
  intros N V HN.
  - intros s c st HI Hs. pose proof HI as (E1 & E2 & Hp & Hc & Hb & Hret).
    unfold cp_step in Hs. destruct c as [k|].
    + destruct (nth_error (cp_gor s) k) as [[[b e]|]|] eqn:Ek; try discriminate.
      pose proof (nsum_upd _ gpend _ _ _ None Ek) as Hn. cbn [gpend] in Hn.
      pose proof (zprod_upd_1 _ (gval N) _ _ _ None Ek eq_refl) as Hz. cbn [gval] in Hz.
      assert (Hcl : cp_closed s = false).
      { destruct (cp_ret s) as [v|]; [slia|tauto]. }
      rewrite Hcl in Hs. destruct (Nat.ltb_spec (length (cp_chan s)) (cp_cap s)) as [Hlt|Hge].
      * injection Hs as <-. eexists. split; [reflexivity|].
        unfold cp_inv, cp_measure. cbn [cp_N cp_total cp_cap cp_prod cp_chan cp_gor cp_i cp_ret cp_closed].
        rewrite app_length. cbn [length]. split; [|slia]. repeat split; auto; try slia.
        -- rewrite zprod_app, zprod_cons, zprod_nil, E1. rewrite <- Hp, Hz. f_equal. ring.
        -- destruct (cp_ret s) as [v|]; slia || tauto.
      * destruct (Nat.eqb_spec (cp_cap s) 0) as [Hz0|]; [|discriminate].
        destruct (cp_ret s) as [v|] eqn:Er; [discriminate|]. injection Hs as <-.
        assert (Hch : cp_chan s = []).
        { destruct (cp_chan s); [reflexivity|]. cbn [length] in Hc. destruct Hret. slia. }
        rewrite Hch in *. cbn [length] in *.
        destruct (cp_receive_inv N V s (upd (cp_gor s) k None) [] (exp_recv 0 b e (cp_N s)) HN E1 E2 Er Hcl) as (s' & -> & HI' & G & C).
        { cbn [length]. slia. }
        { rewrite E1, zprod_nil. rewrite <- Hp, Hz, zprod_nil. f_equal. ring. }
        exists s'. split; [reflexivity|]. split; [assumption|]. unfold cp_measure. rewrite G, C, Hch. cbn [length]. slia.
    + destruct (cp_ret s) as [v|] eqn:Er; [discriminate|]. destruct (cp_chan s) as [|v q] eqn:Eq; [discriminate|].
      injection Hs as <-. cbn [length] in Hc. rewrite zprod_cons in Hp.
      destruct (cp_receive_inv N V s (cp_gor s) q v HN E1 E2 Er (proj1 Hret)) as (s' & -> & HI' & G & C).
      { slia. }
      { rewrite <- Hp. f_equal. ring. }
      exists s'. split; [reflexivity|]. split; [assumption|]. unfold cp_measure. rewrite G, C, Eq. cbn [length]. slia.
Qed.
Lemma cp_inv_progress : forall N V s, cp_inv N V s ->
  (exists v, cp_ret s = Some v /\ v = V mod N) \/ (cp_ret s = None /\ exists c st', cp_step s c = Some st').
Proof.
  intros N V.
  - intros s (E1 & E2 & Hp & Hc & Hb & Hret). destruct (cp_ret s) as [v|] eqn:Er.
    + left. exists v. split; [reflexivity|]. destruct Hret as [-> Hi].
      assert (Hch : cp_chan s = []) by (destruct (cp_chan s); [reflexivity|cbn [length] in Hc; slia]).
      assert (Hg : nsum gpend (cp_gor s) = 0%nat) by slia.
      assert (Hz : zprod (gval N) (cp_gor s) = 1).
      { apply nsum_zero in Hg. clear -Hg. induction Hg as [|o l Ho Hl IH]; [reflexivity|].
        rewrite zprod_cons, IH. destruct o; [discriminate|reflexivity]. }
      rewrite Hch, Hz, zprod_nil, !Z.mul_1_r, Z.mod_small in Hp by assumption. assumption.
    + right. split; [reflexivity|]. destruct Hret as [Hcl Hi].
      destruct (cp_chan s) as [|v q] eqn:Eq.
      * destruct (nsum_pos _ gpend (cp_gor s)) as (k & o & Hk & Ho); [cbn [length] in Hc; slia|].
        destruct o as [[b e]|]; [|cbn in Ho; slia].
        exists (CPSend k). unfold cp_step. rewrite Hk, Hcl, Eq, Er. cbn [length].
        destruct (Nat.ltb_spec 0 (cp_cap s)); [eauto|].
        replace (cp_cap s =? 0)%nat with true by (symmetry; apply Nat.eqb_eq; slia). eauto.
      * exists CPRecv. unfold cp_step. rewrite Er, Eq. eauto.
Qed.
Lemma cp_always : forall N V s0, 1 < N -> cp_inv N V s0 ->
  always_ends cp_step cp_ret (fun _ => false) s0 (fun v => v = V mod N).
Proof.
  intros N V s0 HN H0. apply (always_ends_inv _ _ _ (cp_inv N V) cp_measure); [assumption|intros s c st; now apply cp_inv_step|].
  intros s HI. destruct (cp_inv_progress N V s HI) as [H|(H & c & st & Hs)]; [now left|right]. split; [assumption|]. now exists c, st.
Qed.

Lemma cp_init_inv : forall B N t x, 1 < N -> table_ok B N t -> 0 < x ->
  exists s, cp_init t x N = Ret s /\ cp_inv N (B ^ x) s.
Proof.
  intros B N t x HN Hok Hx. pose proof Hok as (L & L1 & H0 & Hr & Hm). unfold cp_init.
  rewrite L, Nat.eqb_refl. cbn [negb].
  replace (length (pt_n t) <? 1)%nat with false by (symmetry; apply Nat.ltb_ge; slia).
  replace (x <? 1) with false by (symmetry; apply Z.ltb_ge; slia).
  pose proof (find_iCounter_lt (pt_n t) (bit_len x) L1) as Hc. set (ic := find_iCounter (pt_n t) (bit_len x)) in *.
  destruct (split_x_spec (pt_n t) (fun i Hi => proj1 (Hr i Hi)) Hm ic 0 x ltac:(slia) ltac:(slia)) as (subs & E & Ls & F & W).
  rewrite E. cbn [bind]. destruct (start_all_spec B N t ltac:(slia) Hok subs 0 ltac:(slia) F) as (gs & Eg & Lg & Fg & P).
  rewrite Eg. cbn [bind]. eexists. split; [reflexivity|].
  unfold cp_inv. cbn [cp_N cp_total cp_cap cp_prod cp_chan cp_gor cp_i cp_ret cp_closed length].
  split; [reflexivity|]. split; [reflexivity|]. split; [|split; [|split; [slia|split; [reflexivity|slia]]]].
  - rewrite zprod_nil, !Z.mul_1_l. rewrite W, H0, Z.pow_0_r, Z.mul_1_r in P. rewrite <- P. f_equal.
    clear. induction gs as [|[b e] gs IH]; [reflexivity|]. cbn [map]. rewrite !zprod_cons, IH. reflexivity.
  - assert (Hs : nsum gpend (map Some gs) = length gs).
    { clear. induction gs as [|g gs IH]; [reflexivity|]. cbn [map length]. unfold nsum in *. cbn [fold_right]. rewrite IH. reflexivity. }
    rewrite Hs, Lg, Ls. clear. slia.
Qed.

(** ** NewTable *)
Definition tbl_ok (g n : Z) (t : Table) : Prop :=
  t_n t = n /\ (1 <= t_chunk t)%nat /\ (1 <= length (t_table t))%nat /\
  forall i, (i < length (t_table t))%nat ->
    nth i (t_table t) 0 mod n = g ^ (2 ^ (8 * Z.of_nat (t_chunk t) * Z.of_nat i)) mod n.

Lemma table_rows_spec : forall g n d, 0 < n -> 0 <= d -> forall k prev e, 0 <= e ->
  prev mod n = g ^ (2 ^ e) mod n ->
  length (table_rows k prev (2 ^ d) n) = k /\
  forall i, (i < k)%nat -> nth i (table_rows k prev (2 ^ d) n) 0 mod n = g ^ (2 ^ (e + d * (Z.of_nat i + 1))) mod n.
Proof.
  intros g n d Hn Hd. induction k as [|k IH]; intros prev e He Hp; cbn [table_rows].
  - split; [reflexivity|slia].
  - assert (Hrow : exp_recv 0 prev (2 ^ d) n mod n = g ^ (2 ^ (e + d)) mod n).
    { assert (0 <= 2 ^ d) by (apply Z.pow_nonneg; slia). assert (0 <= 2 ^ e) by (apply Z.pow_nonneg; slia).
      rewrite exp_recv_nonneg, Zmod_mod by assumption. rewrite <- pow_mod_idem, Hp, pow_mod_idem by assumption.
      rewrite <- Z.pow_mul_r by assumption. now rewrite <- Z.pow_add_r by slia. }
    destruct (IH _ (e + d) (Z.add_nonneg_nonneg _ _ He Hd) Hrow) as [L H]. split; [cbn [length]; now rewrite L|].
    intros [|i] Hi; cbn [nth].
    + rewrite Hrow. replace (e + d * (Z.of_nat 0 + 1)) with (e + d) by (clear; slia). reflexivity.
    + rewrite H by (clear -Hi; slia). replace (e + d * (Z.of_nat (S i) + 1)) with (e + d + d * (Z.of_nat i + 1)) by (clear; slia). reflexivity.
Qed.

Lemma NewTable_ok : forall g n bound num c t, 0 < n -> NewTable g n bound num c = Ret t ->
  tbl_ok g n t /\ t_chunk t = c /\
  length (t_table t) = Z.to_nat (bit_len bound * Z.of_nat num / (8 * Z.of_nat c)).
Proof.
  intros g n bound num c t Hn E. unfold NewTable in E.
  destruct (Nat.eqb_spec c 0) as [|Hc]; [discriminate|]. rewrite (Z.mul_comm (Z.of_nat c) 8) in E.
  destruct (Z.to_nat (bit_len bound * Z.of_nat num / (8 * Z.of_nat c))) as [|k] eqn:Ek; [discriminate|].
  assert (Et : t = {| t_g := g; t_n := n; t_chunk := c; t_table := g :: table_rows k g (2 ^ (8 * Z.of_nat c)) n |})
    by congruence.
  subst t. clear E. cbn [t_chunk t_table].
  destruct (table_rows_spec g n (8 * Z.of_nat c) Hn ltac:(slia) k g 0 ltac:(slia)) as [L H].
  { now rewrite Z.pow_0_r, Z.pow_1_r. }
  split; [|split; [reflexivity|cbn [length]; now rewrite L]].
  unfold tbl_ok. cbn [t_n t_chunk t_table length]. split; [reflexivity|]. split; [slia|]. split; [slia|].
  intros [|i] Hi; cbn [nth].
  - cbn [Z.of_nat]. now rewrite Z.mul_0_r, Z.pow_0_r, Z.pow_1_r.
  - rewrite H by (cbn [length] in Hi; rewrite L in Hi; clear -Hi; slia). rewrite Nat2Z.inj_succ. reflexivity.
Qed.

(** ** bytes and chunks *)
Definition bval (l : list ascii) : Z := fold_left (fun acc a => acc * 256 + byte_val a) l 0.
Lemma bval_app : forall l1 l2, bval (l1 ++ l2) = bval l1 * 256 ^ Z.of_nat (length l2) + bval l2.
Proof. intros. unfold bval. rewrite fold_left_app. apply set_bytes_acc. Qed.
Lemma bval_nonneg : forall l, 0 <= bval l.
Proof. intros. apply set_bytes_bound_list. Qed.
Lemma set_bytes_bval : forall l, set_bytes (string_of_list_ascii l) = bval l.
Proof. intros. unfold set_bytes, bval. now rewrite list_ascii_of_string_of_list_ascii. Qed.

(** exponent still to be fed when the main loop is at i *)
Definition E_rest (bs : list ascii) (i : nat) : Z := bval (firstn i bs) * 256 ^ Z.of_nat (length bs - i).

Lemma E_rest_step : forall bs i l, (l <= i <= length bs)%nat ->
  E_rest bs i = bval (firstn (i - l) (skipn l bs)) * 256 ^ Z.of_nat (length bs - i) + E_rest bs l.
Proof.
  intros bs i l H. unfold E_rest.
  assert (S : firstn i bs = firstn l bs ++ firstn (i - l) (skipn l bs)).
  { rewrite <- firstn_add. f_equal. slia. }
  rewrite S, bval_app, firstn_length, skipn_length, Nat.min_l by slia.
  replace (Z.of_nat (length bs - l)) with (Z.of_nat (i - l) + Z.of_nat (length bs - i)) by slia.
  rewrite Z.pow_add_r by slia. ring.
Qed.
Lemma E_rest_0 : forall bs, E_rest bs 0 = 0.
Proof. reflexivity. Qed.
Lemma E_rest_all : forall bs, E_rest bs (length bs) = bval bs.
Proof. intros. unfold E_rest. rewrite firstn_all, Nat.sub_diag, Z.mul_1_r. reflexivity. Qed.
Lemma E_rest_nonneg : forall bs i, 0 <= E_rest bs i.
Proof. intros. unfold E_rest. apply Z.mul_nonneg_nonneg; [apply bval_nonneg|apply Z.pow_nonneg; slia]. Qed.

(** number of inputs still to be fed *)
Definition cnt (c i : nat) : nat := ((i + c - 1) / c)%nat.
Lemma cnt_step : forall c i, (0 < c)%nat -> (0 < i)%nat -> cnt c i = S (cnt c (i - c)).
Proof.
  intros c i Hc Hi. unfold cnt. destruct (Nat.le_gt_cases c i) as [H|H].
  - replace (i + c - 1)%nat with ((i - c + c - 1) + 1 * c)%nat by slia. rewrite Nat.div_add by slia. slia.
  - replace (i - c)%nat with 0%nat by slia. rewrite (Nat.div_small (0 + c - 1)) by slia.
    symmetry. apply (Nat.div_unique _ _ _ (i - 1)); slia.
Qed.
Lemma cnt_0 : forall c, (0 < c)%nat -> cnt c 0 = 0%nat.
Proof. intros. unfold cnt. apply Nat.div_small. slia. Qed.
Lemma cnt_init : forall c len, (0 < c)%nat ->
  Z.of_nat (len / c) + (if (len mod c =? 0)%nat then 0 else 1) = Z.of_nat (cnt c len).
Proof.
  intros c len Hc. pose proof (Nat.div_mod len c ltac:(slia)) as D. pose proof (Nat.mod_upper_bound len c ltac:(slia)) as U.
  unfold cnt. destruct (Nat.eqb_spec (len mod c) 0) as [E|E].
  - rewrite <- (Nat.div_unique (len + c - 1) c (len / c) (c - 1)); slia.
  - rewrite <- (Nat.div_unique (len + c - 1) c (len / c + 1) (len mod c - 1)); slia.
Qed.

Definition ival (t : Table) (bs : list ascii) (i : input) : Z :=
  match work_value t bs i with Ret v => v | _ => 1 end.
Definition wval (w : worker) : Z := match w with WSend v => v | _ => 1 end.
Definition wpend (w : worker) : nat := match w with WSend _ => 1 | _ => 0 end.
Definition wlive (w : worker) : nat := match w with WExited => 0 | _ => 1 end.

Definition t_inv (g n : Z) (t : Table) (bs : list ascii) (R : nat) (s : tstate) : Prop :=
  ts_table s = t /\ ts_bytes s = bs /\ ts_R s = R /\ length (ts_workers s) = R /\
  Forall (fun i => exists v, work_value t bs i = Ret v) (ts_in s) /\
  match ts_main s with
  | MFeed i =>
      Forall (fun w => w <> WExited) (ts_workers s) /\
      (exists q, i = (length bs - q * t_chunk t)%nat) /\
      match ts_coll s with
      | CLoop res counter =>
          0 < counter /\ counter = Z.of_nat (length (ts_out s) + nsum wpend (ts_workers s) + length (ts_in s) + cnt (t_chunk t) i) /\
          (res * zprod (fun v => v) (ts_out s) * zprod wval (ts_workers s) * zprod (ival t bs) (ts_in s) * g ^ E_rest bs i) mod n
            = g ^ bval bs mod n
      | CSend r => ts_in s = [] /\ i = 0%nat /\ r = g ^ bval bs mod n
      | CExited => False
      end
  | MReturned v => ts_in s = [] /\ nsum wpend (ts_workers s) = 0%nat /\ ts_out s = [] /\ v = g ^ bval bs mod n
  end /\
  (match ts_coll s with CLoop _ _ => True | _ => nsum wpend (ts_workers s) = 0%nat /\ ts_out s = [] end).

Definition t_measure (s : tstate) : nat :=
  4 * (match ts_main s with MFeed i => cnt (t_chunk (ts_table s)) i | _ => 0 end) + 3 * length (ts_in s) +
  2 * nsum wpend (ts_workers s) + length (ts_out s) +
  (match ts_main s with MFeed _ => 1 | _ => 0 end) + nsum wlive (ts_workers s).

Lemma work_value_ok : forall g n t bs i q, 0 < n -> tbl_ok g n t ->
  (length bs <= t_chunk t * length (t_table t))%nat ->
  (0 < i)%nat -> i = (length bs - q * t_chunk t)%nat ->
  work_value t bs {| in_left := i - t_chunk t; in_right := i; in_idx := (length bs - i) / t_chunk t |}
  = Ret (g ^ (bval (firstn (i - (i - t_chunk t)) (skipn (i - t_chunk t) bs)) * 256 ^ Z.of_nat (length bs - i)) mod n).
Proof.
  intros g n t bs i q Hn (En & Hc & Hl & Ht) Hcov Hi Eq. unfold work_value. cbn [in_left in_right in_idx].
  rewrite go_slice_ret by slia. cbn [bind]. unfold slice.
  assert (Ei : ((length bs - i) / t_chunk t = q)%nat).
  { replace (length bs - i)%nat with (q * t_chunk t)%nat by slia. apply Nat.div_mul. slia. }
  assert (Hq : (q < length (t_table t))%nat) by nia.
  rewrite Ei, go_index_nth by assumption. cbn [bind]. rewrite set_bytes_bval. f_equal.
  set (e := bval _). assert (He : 0 <= e) by apply bval_nonneg.
  rewrite En, exp_recv_nonneg by assumption. rewrite <- pow_mod_idem, Ht, pow_mod_idem by assumption.
  rewrite <- Z.pow_mul_r by (try assumption; apply Z.pow_nonneg; slia).
  f_equal. f_equal. rewrite Z.mul_comm. f_equal. change 256 with (2 ^ 8). rewrite <- Z.pow_mul_r by slia.
  f_equal. replace (length bs - i)%nat with (q * t_chunk t)%nat by slia. slia.
Qed.

Lemma idle_zprod : forall ws, nsum wpend ws = 0%nat -> zprod wval ws = 1.
Proof.
  intros ws H. apply nsum_zero in H. induction H as [|w ws Hw H IH]; [reflexivity|].
  rewrite zprod_cons, IH. destruct w; try reflexivity. discriminate.
Qed.

Lemma t_inv_step : forall g n t bs R, 1 < n -> tbl_ok g n t ->
  (length bs <= t_chunk t * length (t_table t))%nat ->
  forall s c st, t_inv g n t bs R s -> t_step s c = Some st ->
  exists s', st = Ret s' /\ t_inv g n t bs R s' /\ (if t_idle c then t_measure s' <= t_measure s else t_measure s' < t_measure s)%nat.
Proof.
  intros g n t bs R Hn Hok Hcov s c st HI Hs.
  pose proof HI as (E1 & E2 & E3 & Lw & Fin & Hm & Hco). pose proof Hok as (En & Hc & Hl & Ht).
  unfold t_step in Hs. destruct c as [|w|w| | |w|w]; cbn [t_idle].
  - (* TFeed *)
    destruct (ts_main s) as [i0|] eqn:Em; [|discriminate]. destruct i0 as [|i']; [discriminate|].
    remember (S i') as i eqn:Ei in *.
    destruct (Nat.ltb_spec (length (ts_in s)) (4 * ts_R s)); [|discriminate]. injection Hs as <-.
    destruct Hm as (Fw & (q & Hq) & Hm).
    destruct (ts_coll s) as [res counter|r|] eqn:Ec; [|destruct Hm as (_ & X & _); slia|tauto]. destruct Hm as (Hpos & Hcnt & Hp).
    pose proof (work_value_ok g n t bs i q ltac:(slia) Hok Hcov ltac:(slia) Hq) as Hwv.
    rewrite E1, E2.
    set (inp := {| in_left := i - t_chunk t; in_right := i; in_idx := (length bs - i) / t_chunk t |}) in *.
    pose proof (cnt_step (t_chunk t) i ltac:(slia) ltac:(slia)) as Hk.
    eexists. split; [reflexivity|]. split.
    + unfold t_inv, set_main, set_in. cbn [ts_table ts_bytes ts_R ts_workers ts_in ts_main ts_coll ts_out].
      rewrite Ec. repeat split; auto.
      * apply Forall_app. split; [assumption|]. constructor; [|constructor]. eauto.
      * exists (S q). slia.
      * rewrite app_length. cbn [length]. rewrite Hcnt, Hk. slia.
      * rewrite zprod_app, zprod_cons, zprod_nil. unfold ival at 2. rewrite Hwv.
        rewrite <- Hp. rewrite (E_rest_step bs i (i - t_chunk t)) by slia.
        set (e := bval (firstn (i - (i - t_chunk t)) (skipn (i - t_chunk t) bs)) * 256 ^ Z.of_nat (length bs - i)).
        rewrite Z.pow_add_r; [|apply Z.mul_nonneg_nonneg; [apply bval_nonneg|apply Z.pow_nonneg; slia]|apply E_rest_nonneg].
        set (A := res * zprod (fun v => v) (ts_out s) * zprod wval (ts_workers s)).
        replace (A * (zprod (ival t bs) (ts_in s) * (g ^ e mod n * 1)) * g ^ E_rest bs (i - t_chunk t))
          with (A * zprod (ival t bs) (ts_in s) * g ^ E_rest bs (i - t_chunk t) * (g ^ e mod n)) by ring.
        rewrite mul_mod_idem_r. f_equal. ring.
    + unfold t_measure, set_main, set_in. cbn [ts_table ts_bytes ts_R ts_workers ts_in ts_main ts_coll ts_out].
      rewrite Em, E1, app_length, Hk. cbn [length]. slia.
  - (* TTake *)
    destruct (nth_error (ts_workers s) w) as [[|v|]|] eqn:Ew; try discriminate.
    destruct (ts_in s) as [|inp q] eqn:Eq; [discriminate|]. inversion_clear Fin as [|? ? [v Hv] Fq].
    rewrite E1, E2, Hv in Hs. cbn [bind] in Hs. injection Hs as <-.
    pose proof (nsum_upd _ wpend _ _ _ (WSend v) Ew) as Hn1. pose proof (nsum_upd _ wlive _ _ _ (WSend v) Ew) as Hn2.
    cbn [wpend wlive] in Hn1, Hn2.
    pose proof (zprod_upd_2 _ wval _ _ _ (WSend v) Ew eq_refl) as Hz. cbn [wval] in Hz.
    destruct (ts_main s) as [i|v0] eqn:Em; [|destruct Hm; discriminate].
    destruct Hm as (Fw & Hq & Hm). destruct (ts_coll s) as [res counter|r|] eqn:Ec; [|destruct Hm; discriminate|tauto].
    eexists. split; [reflexivity|]. split.
    + unfold t_inv, set_worker, set_in. cbn [ts_table ts_bytes ts_R ts_workers ts_in ts_main ts_coll ts_out].
      rewrite Em, Ec, length_upd. destruct Hm as (Hpos & Hcnt & Hp). cbn [length] in Hcnt.
      repeat split; auto.
      * apply Forall_upd; [assumption|discriminate].
      * slia.
      * rewrite Hz. rewrite <- Hp, zprod_cons. unfold ival at 2. rewrite Hv. f_equal. ring.
    + unfold t_measure, set_worker, set_in. cbn [ts_table ts_bytes ts_R ts_workers ts_in ts_main ts_coll ts_out].
      rewrite Em, Eq. cbn [length]. slia.
  - (* TGive *)
    destruct (nth_error (ts_workers s) w) as [[|v|]|] eqn:Ew; try discriminate.
    destruct (Nat.ltb_spec (length (ts_out s)) (ts_R s)); [|discriminate]. injection Hs as <-.
    pose proof (nsum_upd _ wpend _ _ _ WLoop Ew) as Hn1. pose proof (nsum_upd _ wlive _ _ _ WLoop Ew) as Hn2.
    cbn [wpend wlive] in Hn1, Hn2.
    pose proof (zprod_upd_1 _ wval _ _ _ WLoop Ew eq_refl) as Hz. cbn [wval] in Hz.
    pose proof (nsum_ge _ wpend _ _ _ Ew) as Hge. cbn [wpend] in Hge.
    destruct (ts_main s) as [i|v0] eqn:Em; [|destruct Hm as (_ & X & _); slia].
    destruct Hm as (Fw & Hq & Hm). destruct (ts_coll s) as [res counter|r|] eqn:Ec; [|slia|tauto].
    eexists. split; [reflexivity|]. split.
    + unfold t_inv, set_worker, set_out. cbn [ts_table ts_bytes ts_R ts_workers ts_in ts_main ts_coll ts_out].
      rewrite Em, Ec, length_upd, app_length. cbn [length]. destruct Hm as (Hpos & Hcnt & Hp).
      repeat split; auto.
      * apply Forall_upd; [assumption|discriminate].
      * slia.
      * rewrite zprod_app, zprod_cons, zprod_nil. rewrite <- Hp, Hz. f_equal. ring.
    + unfold t_measure, set_worker, set_out. cbn [ts_table ts_bytes ts_R ts_workers ts_in ts_main ts_coll ts_out].
      rewrite Em, app_length. cbn [length]. slia.
  - (* TColl *)
    destruct (ts_coll s) as [res counter|r|] eqn:Ec; try discriminate.
    destruct (ts_out s) as [|v q] eqn:Eo; [discriminate|].
    rewrite E1, En, go_mod_pos in Hs by slia. cbn [bind] in Hs. injection Hs as <-.
    destruct (ts_main s) as [i|v0] eqn:Em; [|destruct Hm as (_ & _ & X & _); discriminate].
    destruct Hm as (Fw & Hq & Hpos & Hcnt & Hp). cbn [length] in Hcnt. rewrite zprod_cons in Hp.
    eexists. split; [reflexivity|]. split.
    + unfold t_inv, set_coll, set_out. cbn [ts_table ts_bytes ts_R ts_workers ts_in ts_main ts_coll ts_out].
      rewrite Em. destruct (Z.eqb_spec (counter - 1) 0) as [E0|E0].
      * assert (Hin : ts_in s = []) by (destruct (ts_in s); [reflexivity|cbn [length] in Hcnt; slia]).
        assert (Hqq : q = []) by (destruct q; [reflexivity|cbn [length] in Hcnt; slia]).
        assert (Hi0 : i = 0%nat).
        { destruct i; [reflexivity|]. rewrite (cnt_step (t_chunk t)) in Hcnt by slia. slia. }
        assert (Hw0 : nsum wpend (ts_workers s) = 0%nat) by slia.
        repeat split; auto.
        rewrite Hin, Hqq, Hi0, E_rest_0, (idle_zprod _ Hw0), !zprod_nil, Z.pow_0_r, !Z.mul_1_r in Hp. assumption.
      * repeat split; auto.
        -- slia.
        -- slia.
        -- rewrite <- Hp. rewrite <- !Z.mul_assoc, mul_mod_idem_l. f_equal. ring.
    + unfold t_measure, set_coll, set_out. cbn [ts_table ts_bytes ts_R ts_workers ts_in ts_main ts_coll ts_out].
      rewrite Eo. cbn [length]. slia.
  - (* TResult *)
    destruct (ts_main s) as [[|i]|v0] eqn:Em; try discriminate.
    destruct (ts_coll s) as [res counter|r|] eqn:Ec; try discriminate. injection Hs as <-.
    destruct Hm as (Fw & Hq & Hin & _ & Hr). destruct Hco as [Hw0 Ho].
    eexists. split; [reflexivity|]. split.
    + unfold t_inv, set_coll, set_main. cbn [ts_table ts_bytes ts_R ts_workers ts_in ts_main ts_coll ts_out].
      repeat split; auto.
    + unfold t_measure, set_coll, set_main. cbn [ts_table ts_bytes ts_R ts_workers ts_in ts_main ts_coll ts_out].
      rewrite Em. slia.
  - (* TSpin *)
    destruct (nth_error (ts_workers s) w) as [[|v|]|]; try discriminate.
    destruct (ts_in s); [|discriminate]. destruct (ts_main s) eqn:Em; [|discriminate]. injection Hs as <-.
    exists s. auto.
  - (* TExit *)
    destruct (nth_error (ts_workers s) w) as [[|v|]|] eqn:Ew; try discriminate.
    destruct (ts_main s) as [i|v0] eqn:Em; [discriminate|]. injection Hs as <-.
    pose proof (nsum_upd _ wpend _ _ _ WExited Ew) as Hn1. pose proof (nsum_upd _ wlive _ _ _ WExited Ew) as Hn2.
    cbn [wpend wlive] in Hn1, Hn2. destruct Hm as (Hin & Hw0 & Ho & Hv).
    eexists. split; [reflexivity|]. split.
    + unfold t_inv, set_worker. cbn [ts_table ts_bytes ts_R ts_workers ts_in ts_main ts_coll ts_out].
      rewrite Em, length_upd. repeat split; auto; try slia.
      destruct (ts_coll s); auto; split; [slia|assumption|slia|assumption].
    + unfold t_measure, set_worker. cbn [ts_table ts_bytes ts_R ts_workers ts_in ts_main ts_coll ts_out].
      rewrite Em. slia.
Qed.

Lemma t_inv_progress : forall g n t bs R s, (1 <= R)%nat -> t_inv g n t bs R s ->
  (exists v, t_ret s = Some v /\ v = g ^ bval bs mod n) \/
  (t_ret s = None /\ exists c st', t_idle c = false /\ t_step s c = Some st').
Proof.
  intros g n t bs R s HR (E1 & E2 & E3 & Lw & Fin & Hm & Hco). unfold t_ret.
  destruct (ts_main s) as [i|v] eqn:Em; [|left; exists v; tauto].
  right. split; [reflexivity|]. destruct Hm as (Fw & Hq & Hm).
  destruct (ts_out s) as [|o out] eqn:Eo.
  - (* outputs empty: a pending worker can give, otherwise a worker can take, otherwise feed or result *)
    destruct (Nat.eq_dec (nsum wpend (ts_workers s)) 0) as [Hw|Hw].
    + destruct (ts_in s) as [|inp q] eqn:Ei.
      * destruct i as [|i].
        -- destruct (ts_coll s) as [res counter|r|] eqn:Ec; [|exists TResult|tauto].
           ++ exfalso. destruct Hm as (Hm0 & Hm & _). cbn [length] in Hm. destruct (Nat.eq_dec (t_chunk t) 0) as [Z0|Z0].
              ** unfold cnt in Hm. rewrite Z0 in Hm. cbn in Hm. slia.
              ** rewrite cnt_0 in Hm by slia. slia.
           ++ eexists. split; [reflexivity|]. unfold t_step. rewrite Em, Ec. reflexivity.
        -- exists TFeed. eexists. split; [reflexivity|]. unfold t_step. rewrite Em, Ei, E3. cbn [length].
           replace (0 <? 4 * R)%nat with true by (symmetry; apply Nat.ltb_lt; slia). reflexivity.
      * destruct (ts_workers s) as [|w ws] eqn:Ews; [cbn in Lw; slia|].
        inversion_clear Fw as [|? ? Hx _]. unfold nsum in Hw. cbn [fold_right] in Hw.
        destruct w; [|cbn [wpend] in Hw; slia|congruence].
        exists (TTake 0). eexists. split; [reflexivity|]. unfold t_step. rewrite Ews, Ei. cbn [nth_error]. reflexivity.
    + destruct (nsum_pos _ wpend (ts_workers s)) as (k & w & Hk & Hp); [slia|].
      destruct w as [|v|]; cbn in Hp; try slia.
      exists (TGive k). eexists. split; [reflexivity|]. unfold t_step. rewrite Hk, Eo, E3. cbn [length].
      replace (0 <? R)%nat with true by (symmetry; apply Nat.ltb_lt; slia). reflexivity.
  - destruct (ts_coll s) as [res counter|r|] eqn:Ec; [|destruct Hco; discriminate|tauto].
    exists TColl. eexists. split; [reflexivity|]. unfold t_step. rewrite Ec, Eo. reflexivity.
Qed.

(** ** length of Bytes *)
Lemma bytes_le_length : forall f x k, 0 <= x -> x < 256 ^ Z.of_nat k -> (length (bytes_le f x) <= k)%nat.
Proof.
  induction f as [|f IH]; intros x k Hx Hk; cbn [bytes_le]; [cbn [length]; lia|].
  destruct (Z.eqb_spec x 0); [cbn [length]; lia|]. destruct k as [|k].
  - change (256 ^ Z.of_nat 0) with 1 in Hk. lia.
  - cbn [length]. apply le_n_S. apply IH; [apply Z.div_pos; lia|].
    apply Z.div_lt_upper_bound; [lia|]. rewrite Nat2Z.inj_succ, Z.pow_succ_r in Hk by lia. lia.
Qed.
Lemma big_bytes_length : forall x k, Z.abs x < 256 ^ Z.of_nat k ->
  (length (list_ascii_of_string (big_bytes x)) <= k)%nat.
Proof.
  intros x k H. unfold big_bytes. rewrite list_ascii_of_string_of_list_ascii, rev_length.
  apply bytes_le_length; [lia|assumption].
Qed.
Lemma big_bytes_bval : forall x, bval (list_ascii_of_string (big_bytes x)) = Z.abs x.
Proof. intros. exact (set_bytes_big_bytes x). Qed.

Lemma t_init_inv : forall g n t x R, 1 < n -> tbl_ok g n t -> 0 < x ->
  t_inv g n t (list_ascii_of_string (big_bytes x)) R (t_init t x R).
Proof.
  intros g n t x R Hn (En & Hc & Hl & Ht) Hx. set (bs := list_ascii_of_string (big_bytes x)).
  assert (Hlen : (0 < length bs)%nat).
  { destruct bs as [|a l] eqn:E; [|cbn; slia]. pose proof (big_bytes_bval x) as B. fold bs in B. rewrite E in B. cbn in B. slia. }
  unfold t_inv, t_init. fold bs. cbn [ts_table ts_bytes ts_R ts_workers ts_in ts_main ts_coll ts_out].
  rewrite repeat_length, nsum_repeat, zprod_repeat_1 by reflexivity. cbn [wpend length]. rewrite !zprod_nil.
  rewrite cnt_init by slia.
  repeat split; auto.
  - apply Forall_forall. intros w Hw. apply repeat_spec in Hw. subst w. discriminate.
  - exists 0%nat. slia.
  - rewrite cnt_step by slia. slia.
  - slia.
  - rewrite E_rest_all, !Z.mul_1_l. reflexivity.
Qed.

Lemma Compute_always : forall g n t x R, 1 < n -> tbl_ok g n t -> 0 < x -> (1 <= R)%nat ->
  x < 2 ^ (8 * Z.of_nat (t_chunk t) * Z.of_nat (length (t_table t))) ->
  always_ends t_step t_ret t_idle (t_init t x R) (fun v => v = g ^ x mod n).
Proof.
  intros g n t x R Hn Hok Hx HR Hb. set (bs := list_ascii_of_string (big_bytes x)).
  assert (Hlen : (length bs <= t_chunk t * length (t_table t))%nat).
  { apply big_bytes_length. rewrite Z.abs_eq by slia. change 256 with (2 ^ 8). rewrite <- Z.pow_mul_r by slia.
    rewrite Nat2Z.inj_mul, Z.mul_assoc. assumption. }
  assert (Ev : bval bs = x) by (unfold bs; rewrite big_bytes_bval; slia).
  apply (always_ends_inv _ _ _ (t_inv g n t bs R) t_measure).
  - now apply t_init_inv.
  - intros s c st. now apply t_inv_step.
  - intros s HI. rewrite <- Ev. now apply (t_inv_progress g n t bs R).
Qed.
