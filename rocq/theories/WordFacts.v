(** Proofs about the word-level model of the iterative witness functions. *)
From Coq Require Import ZArith Bool Lia List.
From Verif Require Import GoBig GoBigFacts Spec AccModel AccFacts AccProofs IterModel IterProofs WordModel.
Import ListNotations.
Open Scope Z_scope.

Ltac conj := repeat match goal with |- _ /\ _ => split end.

Lemma in_firstn : forall A (P : A -> Prop) i l, Forall P l -> Forall P (firstn i l).
Proof.
  intros A P i l H. rewrite Forall_forall in *. intros x Hx. apply H. rewrite <- (firstn_skipn i l). apply in_or_app. now left.
Qed.
Lemma nth_firstn_lt : forall A k m (q : list A), (k < m)%nat -> nth_error (firstn m q) k = nth_error q k.
Proof.
  intros A k m. revert k. induction m as [|m IH]; intros k q H; [lia|]. destruct q; [destruct k; reflexivity|].
  destruct k; [reflexivity|]. cbn [firstn nth_error]. apply IH. lia.
Qed.

(** ** words *)
Lemma digits_words_of : forall f v, 0 <= v < 2 ^ Z.of_nat f -> digits (words_of f v) = v.
Proof.
  induction f as [|f IH]; intros v H; cbn [words_of].
  - cbn [digits]. change (2 ^ Z.of_nat 0) with 1 in H. lia.
  - destruct (Z.eqb_spec v 0) as [->|N0]; [reflexivity|]. cbn [digits].
    assert (W : 2 <= wbase) by (unfold wbase; lia). revert W. generalize wbase. intros w W.
    rewrite IH.
    + pose proof (Z.div_mod v w). lia.
    + split; [apply Z.div_pos; lia|]. rewrite Nat2Z.inj_succ, Z.pow_succ_r in H by lia.
      apply Z.div_lt_upper_bound; [lia|]. nia.
Qed.
Lemma digits_words : forall v, 0 <= v -> digits (words v) = v.
Proof.
  intros v H. unfold words. apply digits_words_of. split; [exact H|].
  unfold bit_len. destruct (Z.eqb_spec v 0) as [->|N0]; [reflexivity|].
  rewrite Z.abs_eq by exact H. rewrite Z2Nat.id by (pose proof (Z.log2_nonneg v); lia).
  apply Z.log2_spec. lia.
Qed.

(** ** shape of the memory *)
Definition wf_abs (A : list (list Z)) (z : option slice) : Prop :=
  match z with None => True | Some s => (arr s < length A)%nat /\ (len s <= cap A s)%nat end.
Definition wf (w : wmem) : Prop :=
  Forall (fun a => a <> []) (arrays w) /\ Forall (fun o => wf_abs (arrays w) (abs o)) (objs w).

Lemma at_app : forall A B a, (a < length A)%nat -> at_arr (A ++ B) a = at_arr A a.
Proof. intros. unfold at_arr. now apply app_nth1. Qed.
Lemma contents_app : forall A B z, wf_abs A z -> contents (A ++ B) z = contents A z.
Proof. intros A B [s|] H; [|reflexivity]. destruct H as [H _]. cbn [contents]. now rewrite at_app. Qed.
Lemma ival_app : forall A B o, wf_abs A (abs o) -> ival (A ++ B) o = ival A o.
Proof. intros. unfold ival. now rewrite contents_app. Qed.
Lemma wf_abs_app : forall A B z, wf_abs A z -> wf_abs (A ++ B) z.
Proof.
  intros A B [s|] H; [|exact I]. destruct H as [H1 H2]. cbn [wf_abs]. unfold cap in *.
  rewrite app_length, at_app by exact H1. split; [lia|exact H2].
Qed.

(** a slice in an array that did not exist before *)
Definition newer (k : nat) (z : option slice) : Prop := match z with None => True | Some s => (k <= arr s)%nat end.

Lemma fill_none : forall A ws, exists ext s, fill A None ws = (A ++ ext, s) /\ Forall (fun a => a <> []) ext /\
  wf_abs (A ++ ext) s /\ newer (length A) s /\ contents (A ++ ext) s = ws.
Proof.
  intros A [|w ws]; cbn [fill].
  - exists [], None. rewrite app_nil_r. repeat split; constructor.
  - unfold fresh. set (r := repeat 0 _). exists [(w :: ws) ++ r], (Some (Slice (length A) (length (w :: ws)))).
    assert (E : at_arr (A ++ [(w :: ws) ++ r]) (length A) = (w :: ws) ++ r)
      by (unfold at_arr; rewrite app_nth2, Nat.sub_diag by lia; reflexivity).
    split; [reflexivity|]. split; [constructor; [discriminate|constructor]|]. split; [|split].
    + cbn [wf_abs arr len]. unfold cap. cbn [arr]. rewrite E, !app_length. cbn [length]. lia.
    + cbn. lia.
    + cbn [contents arr len]. rewrite E, firstn_app, Nat.sub_diag, firstn_all, firstn_O, app_nil_r. reflexivity.
Qed.

Lemma ival_make : forall A v s, contents A s = words (Z.abs v) -> ival A (BInt (v <? 0) s) = v.
Proof.
  intros A v s E. unfold ival. cbn [abs neg]. rewrite E, digits_words by lia.
  destruct (Z.ltb_spec v 0); lia.
Qed.

Section Sim.
Variable place : Z -> Z -> Z -> scratch.

(** in-place exponentiation with an exponent that is not negative writes no existing array *)
Lemma Exp_self : forall w g y n og oy on, wf w ->
  nth_error (objs w) g = Some og -> nth_error (objs w) y = Some oy -> nth_error (objs w) n = Some on ->
  0 <= ival (arrays w) oy ->
  exists ext o, Exp place w g g y n = Ret (set_obj w g (arrays w ++ ext) o) /\ Forall (fun a => a <> []) ext /\
    wf_abs (arrays w ++ ext) (abs o) /\ newer (length (arrays w)) (abs o) /\
    ival (arrays w ++ ext) o = exp_recv (ival (arrays w) og) (ival (arrays w) og) (ival (arrays w) oy) (ival (arrays w) on).
Proof.
  intros w g y n og oy on [Wa Wo] Hg Hy Hn P. unfold Exp, exp_recv. rewrite Hg, Hy, Hn. cbn [deref bind].
  set (A := arrays w) in *. set (xv := ival A og). set (yv := ival A oy) in *. set (nv := ival A on).
  assert (S0 : exists v, big_exp xv yv nv = Some v).
  { unfold big_exp. destruct (nv =? 0); [eauto|]. destruct (Z.leb_spec 0 yv); [eauto|lia]. }
  destruct S0 as (v & ->).
  replace (yv <? 0) with false by (symmetry; apply Z.ltb_ge; exact P). cbn [andb fst snd].
  replace (if aliased A (abs og) (abs og) || aliased A (abs og) (abs oy) then None else abs og) with (@None slice).
  2: { destruct (abs og) as [s|] eqn:Es; [|now destruct (aliased _ _ _ || _)].
       assert (C : (0 <? cap A s)%nat = true).
       { apply Nat.ltb_lt. unfold cap. rewrite Forall_forall in Wo, Wa.
         specialize (Wo og (nth_error_In _ _ Hg)). rewrite Es in Wo. destruct Wo as [Wo _].
         specialize (Wa (at_arr A (arr s)) ltac:(apply nth_In; exact Wo)). destruct (at_arr A (arr s)); [congruence|cbn; lia]. }
       cbn [aliased]. rewrite C, Nat.eqb_refl. reflexivity. }
  assert (E : forall a b c d, expNN place A None a b c d = fill A None (words d))
    by (intros; unfold expNN; match goal with |- (if ?b then _ else _) = _ => now destruct b end).
  rewrite E. destruct (fill_none A (words (Z.abs v))) as (ext & s & -> & F1 & F2 & F3 & F4).
  exists ext, (BInt (v <? 0) s). split; [reflexivity|]. split; [exact F1|]. split; [exact F2|]. split; [exact F3|].
  now apply ival_make.
Qed.

(** ** the run on words follows the run on cells *)
Definition view (w : wmem) : mem := map (ival (arrays w)) (objs w).
Lemma view_nth : forall w i, nth_error (view w) i = option_map (ival (arrays w)) (nth_error (objs w) i).
Proof. intros. apply nth_error_map. Qed.

Variable A0 : list (list Z).
Variable O0 : list bint.
Let n0 := length O0.
Let k0 := length A0.

Record good (w : wmem) : Prop := Good {
  g_wf : wf w;
  g_arr : exists ext, arrays w = A0 ++ ext;
  g_old : firstn n0 (objs w) = O0;
  g_len : (n0 < length (objs w))%nat;
  g_new : forall i o, (n0 < i)%nat -> nth_error (objs w) i = Some o -> newer k0 (abs o);
  g_sep : forall i j oi oj si sj, (n0 <= i)%nat -> (n0 <= j)%nat -> i <> j ->
    nth_error (objs w) i = Some oi -> nth_error (objs w) j = Some oj ->
    abs oi = Some si -> abs oj = Some sj -> arr si <> arr sj
}.
Definition base_new (w : wmem) : Prop := forall o, nth_error (objs w) n0 = Some o -> newer k0 (abs o).

Lemma good_k : forall w, good w -> (k0 <= length (arrays w))%nat.
Proof. intros w H. destruct (g_arr w H) as (e & ->). unfold k0. rewrite app_length. lia. Qed.
Lemma newer_le : forall a b z, (a <= b)%nat -> newer b z -> newer a z.
Proof. intros a b [s|] H; cbn; [lia|auto]. Qed.
Lemma wf_nth : forall w i o, wf w -> nth_error (objs w) i = Some o -> wf_abs (arrays w) (abs o).
Proof. intros w i o [_ H] E. rewrite Forall_forall in H. apply H. eapply nth_error_In; eauto. Qed.

(** replacing one object that belongs to the call by one with a new array *)
Lemma good_set : forall w g ext o, good w -> (n0 <= g < length (objs w))%nat -> Forall (fun a => a <> []) ext ->
  wf_abs (arrays w ++ ext) (abs o) -> newer (length (arrays w)) (abs o) ->
  good (set_obj w g (arrays w ++ ext) o) /\ (base_new w -> base_new (set_obj w g (arrays w ++ ext) o)) /\
  (g = n0 -> base_new (set_obj w g (arrays w ++ ext) o)).
Proof.
  intros w g ext o H Hg Hx Ho Hn. pose proof (good_k w H) as K. destruct H as [W [e Ea] Old Len New Sep].
  assert (NT : forall i, nth_error (objs (set_obj w g (arrays w ++ ext) o)) i = if (i =? g)%nat then Some o else nth_error (objs w) i)
    by (intros i; cbn [set_obj objs]; apply nth_update; lia).
  assert (Nk : newer k0 (abs o)) by (eapply newer_le; eauto).
  split; [|split].
  - constructor.
    + destruct W as [Wa Wo]. split; cbn [set_obj arrays objs].
      * apply Forall_app. now split.
      * assert (Wo' : Forall (fun o => wf_abs (arrays w ++ ext) (abs o)) (objs w))
          by (eapply Forall_impl; [|exact Wo]; intros; now apply wf_abs_app).
        apply Forall_app. split; [now apply in_firstn|]. constructor; [exact Ho|].
        rewrite Forall_forall in *. intros x Hx'. apply Wo'. rewrite <- (firstn_skipn (S g) (objs w)). apply in_or_app. now right.
    + exists (e ++ ext). cbn [set_obj arrays]. now rewrite Ea, app_assoc.
    + cbn [set_obj objs]. rewrite firstn_app, firstn_firstn, firstn_length.
      replace (Nat.min n0 g) with n0 by lia. replace (n0 - Nat.min g (length (objs w)))%nat with 0%nat by lia.
      now rewrite firstn_O, app_nil_r.
    + cbn [set_obj objs]. rewrite length_update by lia. exact Len.
    + intros i oi Hi E. rewrite NT in E. destruct (Nat.eqb_spec i g); [injection E as <-; exact Nk|eauto].
    + intros i j oi oj si sj Hi Hj Hij E1 E2 S1 S2. rewrite NT in E1, E2.
      destruct (Nat.eqb_spec i g) as [Ei|Ei], (Nat.eqb_spec j g) as [Ej|Ej]; try congruence.
      * injection E1 as <-. rewrite S1 in Hn. cbn in Hn. pose proof (wf_nth w j oj W E2) as B. rewrite S2 in B. cbn in B. lia.
      * injection E2 as <-. rewrite S2 in Hn. cbn in Hn. pose proof (wf_nth w i oi W E1) as B. rewrite S1 in B. cbn in B. lia.
      * eapply (Sep i j); eauto.
  - intros B oi E. rewrite NT in E. destruct (Nat.eqb_spec n0 g); [injection E as <-; exact Nk|now apply B].
  - intros -> oi E. rewrite NT, Nat.eqb_refl in E. injection E as <-. exact Nk.
Qed.

(** adding one object with a new array *)
Lemma good_add : forall w ext o, good w -> Forall (fun a => a <> []) ext ->
  wf_abs (arrays w ++ ext) (abs o) -> newer (length (arrays w)) (abs o) ->
  good (WMem (arrays w ++ ext) (objs w ++ [o])) /\ (base_new w -> base_new (WMem (arrays w ++ ext) (objs w ++ [o]))).
Proof.
  intros w ext o H Hx Ho Hn. pose proof (good_k w H) as K. destruct H as [W [e Ea] Old Len New Sep].
  assert (Nk : newer k0 (abs o)) by (eapply newer_le; eauto).
  assert (NT : forall i oi, nth_error (objs w ++ [o]) i = Some oi -> nth_error (objs w) i = Some oi /\ (i < length (objs w))%nat \/ (i = length (objs w) /\ oi = o)).
  { intros i oi E. destruct (Nat.lt_ge_cases i (length (objs w))).
    - rewrite nth_error_app1 in E by lia. auto.
    - rewrite nth_error_app2 in E by lia. right. destruct (i - length (objs w))%nat as [|[|q]] eqn:Q; cbn in E; try discriminate.
      split; [lia|congruence]. }
  split.
  - constructor; cbn [arrays objs].
    + destruct W as [Wa Wo]. split; cbn [arrays objs].
      * apply Forall_app. now split.
      * apply Forall_app. split; [|constructor; [exact Ho|constructor]].
        eapply Forall_impl; [|exact Wo]. intros; now apply wf_abs_app.
    + exists (e ++ ext). now rewrite Ea, app_assoc.
    + rewrite firstn_app. replace (n0 - length (objs w))%nat with 0%nat by lia. now rewrite firstn_O, app_nil_r.
    + rewrite app_length. lia.
    + intros i oi Hi E. destruct (NT i oi E) as [[E' _]|[_ ->]]; [eauto|exact Nk].
    + intros i j oi oj si sj Hi Hj Hij E1 E2 S1 S2.
      destruct (NT i oi E1) as [[E1' L1]|[Ei Eo]], (NT j oj E2) as [[E2' L2]|[Ej Eo']].
      * eapply (Sep i j); eauto.
      * subst oj. rewrite S2 in Hn. cbn in Hn. pose proof (wf_nth w i oi W E1') as B. rewrite S1 in B. cbn in B. lia.
      * subst oi. rewrite S1 in Hn. cbn in Hn. pose proof (wf_nth w j oj W E2') as B. rewrite S2 in B. cbn in B. lia.
      * lia.
  - intros B oi E. cbn [objs] in E. rewrite nth_error_app1 in E by lia. now apply B.
Qed.

Lemma view_set : forall w g ext o, wf w -> (g < length (objs w))%nat ->
  view (set_obj w g (arrays w ++ ext) o) = store (view w) g (ival (arrays w ++ ext) o).
Proof.
  intros w g ext o W Hg. apply nth_ext_eq. intros i. rewrite store_nth by (unfold view; rewrite map_length; exact Hg).
  rewrite !view_nth. cbn [set_obj objs arrays]. rewrite nth_update by exact Hg.
  destruct (Nat.eqb_spec i g); [reflexivity|]. destruct (nth_error (objs w) i) as [oi|] eqn:E; [|reflexivity].
  cbn [option_map]. f_equal. apply ival_app. eapply wf_nth; eauto.
Qed.
Lemma view_add : forall w ext o, wf w -> view (WMem (arrays w ++ ext) (objs w ++ [o])) = view w ++ [ival (arrays w ++ ext) o].
Proof.
  intros w ext o W. unfold view. cbn [arrays objs]. rewrite map_app. cbn [map]. f_equal.
  apply map_ext_in. intros oi Hi. apply ival_app. destruct W as [_ Wo]. rewrite Forall_forall in Wo. now apply Wo.
Qed.

(** numbers of the caller *)
Lemma old_nth : forall w a o, good w -> nth_error O0 a = Some o -> nth_error (objs w) a = Some o.
Proof.
  intros w a o H E. assert (L : (a < n0)%nat) by (apply nth_error_Some; congruence).
  rewrite <- (g_old w H) in E. rewrite nth_firstn_lt in E by exact L. exact E.
Qed.
Hypothesis W0 : wf (WMem A0 O0).
Lemma old_val : forall w a o, good w -> nth_error O0 a = Some o -> ival (arrays w) o = ival A0 o.
Proof.
  intros w a o H E. destruct (g_arr w H) as (e & ->). apply ival_app. exact (wf_nth (WMem A0 O0) a o W0 E).
Qed.

Definition nonneg_at (a : nat) : Prop := exists o, nth_error O0 a = Some o /\ 0 <= ival A0 o.
Variable N : nat.
Hypothesis HN : (N < n0)%nat.

Lemma accumulate_sim : forall set w g m', good w -> (n0 <= g < length (objs w))%nat -> Forall nonneg_at set ->
  accumulate (view w) g N set = Ret m' ->
  exists w', accumulateW place w g N set = Ret w' /\ view w' = m' /\ good w' /\ length (objs w') = length (objs w) /\
    (base_new w -> base_new w') /\ (g = n0 -> set <> [] -> base_new w').
Proof.
  induction set as [|a set IH]; intros w g m' H Hg F E; cbn [accumulate accumulateW] in *.
  - injection E as <-. exists w. conj; auto; try congruence.
  - inversion F as [|? ? (oa & Ea & Pa) F']; subst.
    destruct (nth_error (objs w) g) as [og|] eqn:Eg; [|apply nth_error_None in Eg; lia].
    assert (LN : exists on, nth_error (objs w) N = Some on).
    { destruct (nth_error (objs w) N) eqn:X; [eauto|]. apply nth_error_None in X. pose proof (g_len w H). lia. }
    destruct LN as (on & En). pose proof (old_nth w a oa H Ea) as Ea'.
    unfold load in E. rewrite !view_nth, Eg, Ea', En in E. cbn [option_map deref bind] in E.
    destruct (Exp_self w g a N og oa on (g_wf w H) Eg Ea' En) as (ext & o & -> & X1 & X2 & X3 & X4).
    { rewrite (old_val w a oa H Ea). exact Pa. }
    cbn [bind]. rewrite <- X4, <- view_set in E by (try apply (g_wf w H); lia).
    destruct (good_set w g ext o H Hg X1 X2 X3) as (G1 & G2 & G3).
    assert (L : length (objs (set_obj w g (arrays w ++ ext) o)) = length (objs w)) by (cbn [set_obj objs]; apply length_update; lia).
    destruct (IH _ g m' G1 ltac:(lia) F' E) as (w' & R1 & R2 & R3 & R4 & R5 & R6).
    exists w'. conj; auto; try congruence.
Qed.

Lemma NewSet_sim : forall w g x, good w -> nth_error (view w) g = Some x ->
  exists w', NewSet w g = Ret (w', length (objs w)) /\ view w' = view w ++ [x] /\ good w' /\
    length (objs w') = S (length (objs w)) /\ (base_new w -> base_new w').
Proof.
  intros w g x H E. rewrite view_nth in E. destruct (nth_error (objs w) g) as [og|] eqn:Eg; [|discriminate].
  injection E as <-. unfold NewSet. rewrite Eg. cbn [deref bind].
  destruct (fill_none (arrays w) (contents (arrays w) (abs og))) as (ext & s & -> & F1 & F2 & F3 & F4).
  eexists. split; [reflexivity|]. destruct (good_add w ext (BInt (neg og) s) H F1 F2 F3) as (G1 & G2).
  split; [|split; [exact G1|split; [cbn [objs]; rewrite app_length; cbn; lia|exact G2]]].
  rewrite view_add by apply (g_wf w H). do 2 f_equal. unfold ival. cbn [abs neg]. now rewrite F4.
Qed.

Lemma accumulateNew_sim : forall set w g m' p, good w -> (n0 <= g < length (objs w))%nat -> Forall nonneg_at set ->
  accumulateNew (view w) g N set = Ret (m', p) ->
  exists w', accumulateNewW place w g N set = Ret (w', p) /\ view w' = m' /\ good w' /\ p = length (objs w) /\
    length (objs w') = S (length (objs w)) /\ (base_new w -> base_new w').
Proof.
  intros set w g m' p H Hg F E. unfold accumulateNew, accumulateNewW in *. unfold load in E.
  destruct (nth_error (view w) g) as [x|] eqn:Ex; [|discriminate]. cbn [deref bind alloc] in E.
  destruct (NewSet_sim w g x H Ex) as (w1 & -> & V1 & G1 & L1 & B1). cbn [bind].
  assert (Lv : length (view w) = length (objs w)) by apply map_length.
  rewrite Lv, <- V1 in E.
  destruct (accumulate (view w1) (length (objs w)) N set) as [m2| |] eqn:E2; try discriminate.
  cbn [bind] in E. injection E as <- <-. pose proof (g_len w H).
  destruct (accumulate_sim set w1 (length (objs w)) m2 G1 ltac:(lia) F E2) as (w2 & -> & V2 & G2 & L2 & B2 & _).
  exists w2. cbn [bind]. conj; auto; lia.
Qed.

(** ** nodes *)
Variable set : list nat.
Hypothesis Hset : Forall nonneg_at set.
Definition node_ok (w : wmem) (nd : pnode) : Prop := (n0 <= proof nd < length (objs w))%nat.
Record gst (st : wstate) : Prop := Gst { gs_mem : good (wm st); gs_nodes : Forall (node_ok (wm st)) (wnodes st) }.
Definition flat (st : wstate) : state := State (view (wm st)) (wnodes st).

Lemma slice_nonneg_at : forall a b s, go_slice set a b = Ret s -> Forall nonneg_at s.
Proof.
  intros a b s E. unfold go_slice in E. destruct ((a <=? b)%nat && _); [|discriminate]. injection E as <-.
  rewrite Forall_forall in *. intros x Hx. apply Hset. rewrite <- (firstn_skipn a set). apply in_or_app. right.
  rewrite <- (firstn_skipn (b - a) (skipn a set)). apply in_or_app. now left.
Qed.

Lemma insert_sim : forall st i st' nx, gst st -> insertNewProofNode (flat st) i N set = Ret (st', nx) ->
  exists w', insertNewProofNodeW place st i N set = Ret (w', nx) /\ flat w' = st' /\ gst w' /\
    (base_new (wm st) -> base_new (wm w')) /\
    (forall nd, nth_error (wnodes st) i = Some nd -> proof nd = n0 -> (left nd < right nd <= length set)%nat -> base_new (wm w')).
Proof.
  intros st i st' nx [Gm Gn] E. unfold insertNewProofNode, insertNewProofNodeW, addr in *. cbn [flat nodes cells] in E.
  destruct (nth_error (wnodes st) i) as [it|] eqn:Ei; [|discriminate]. cbn [deref bind] in *.
  set (mid := (left it + (right it - left it) / 2)%nat) in *.
  destruct (go_slice set (left it) mid) as [sl| |] eqn:E1; try discriminate.
  destruct (go_slice set mid (right it)) as [sr| |] eqn:E2; try discriminate. cbn [bind] in *.
  assert (Gi : node_ok (wm st) it) by (rewrite Forall_forall in Gn; apply Gn; eapply nth_error_In; eauto).
  destruct (accumulateNew (view (wm st)) (proof it) N sl) as [[m1 p1]| |] eqn:E3; try discriminate.
  destruct (accumulateNew_sim sl (wm st) (proof it) m1 p1 Gm Gi (slice_nonneg_at _ _ _ E1) E3) as (w1 & -> & V1 & G1 & P1 & L1 & B1).
  cbn [bind] in *. rewrite <- V1 in E.
  destruct (accumulate (view w1) (proof it) N sr) as [m2| |] eqn:E4; try discriminate.
  unfold node_ok in Gi.
  destruct (accumulate_sim sr w1 (proof it) m2 G1 ltac:(lia) (slice_nonneg_at _ _ _ E2) E4) as (w2 & -> & V2 & G2 & L2 & B2 & B3).
  cbn [bind] in *. injection E as <- <-. eexists. split; [reflexivity|]. split; [|split; [|split]].
  - unfold flat. cbn [wm wnodes]. now rewrite V2.
  - constructor; cbn [wm wnodes]; [exact G2|].
    assert (Up : forall nd, node_ok (wm st) nd -> node_ok w2 nd) by (unfold node_ok; intros; lia).
    apply Forall_app. split; [|constructor; [unfold node_ok; cbn [proof]; pose proof (g_len _ Gm); lia|constructor]].
    unfold set_node. assert (Gn' : Forall (node_ok w2) (wnodes st)) by (eapply Forall_impl; [|exact Gn]; exact Up).
    apply Forall_app. split; [now apply in_firstn|]. constructor; [unfold node_ok; cbn [proof]; lia|].
    rewrite Forall_forall in *. intros x Hx. apply Gn'. rewrite <- (firstn_skipn (S i) (wnodes st)). apply in_or_app. now right.
  - cbn [wm]. auto.
  - cbn [wm]. intros nd [= <-] Hp Hb. apply B3; [exact Hp|]. intros ->.
    unfold go_slice in E2. destruct ((mid <=? right it)%nat && _); [|discriminate]. injection E2 as E2.
    apply (f_equal (@length nat)) in E2. rewrite firstn_length, skipn_length in E2. cbn [length] in E2.
    assert (mid < right it)%nat.
    { unfold mid. pose proof (Nat.div_lt (right it - left it) 2 ltac:(lia) ltac:(lia)). lia. }
    lia.
Qed.

Lemma pass_sim : forall f st it flag st' b, gst st -> pass f (flat st) it flag N set = Ret (st', b) ->
  exists w', passW place f st it flag N set = Ret (w', b) /\ flat w' = st' /\ gst w' /\ (base_new (wm st) -> base_new (wm w')) /\
    (forall i nd, it = Some i -> nth_error (wnodes st) i = Some nd -> proof nd = n0 -> (left nd + 1 < right nd <= length set)%nat -> base_new (wm w')).
Proof.
  induction f as [|f IH]; intros st it flag st' b G E; destruct it as [i|]; cbn [pass passW] in *; try discriminate.
  - injection E as <- <-. exists st. conj; auto; discriminate.
  - cbn [flat nodes] in E. destruct (nth_error (wnodes st) i) as [nd|] eqn:Ei; [|discriminate]. cbn [deref bind] in *.
    destruct (Nat.leb_spec (right nd - left nd) 1) as [Hs|Hs].
    + destruct (IH st (next nd) flag st' b G E) as (w' & R1 & R2 & R3 & R4 & R5).
      exists w'. conj; auto. intros i' nd' [= <-] E' Hp Hb. assert (nd' = nd) by congruence. subst nd'. lia.
    + change (State (view (wm st)) (wnodes st)) with (flat st) in E.
      destruct (insertNewProofNode (flat st) i N set) as [[st1 i1]| |] eqn:E1; try discriminate. cbn [bind] in E.
      destruct (insert_sim st i st1 i1 G E1) as (w1 & -> & <- & G1 & B1 & B2). cbn [bind].
      destruct (IH w1 i1 true st' b G1 E) as (w' & R1 & R2 & R3 & R4 & R5).
      exists w'. conj; auto. intros i' nd' [= <-] E' Hp Hb. apply R4. apply (B2 nd' E' Hp). lia.
  - injection E as <- <-. exists st. conj; auto; discriminate.
Qed.

Lemma passes_sim : forall f st h st', gst st -> passes f (flat st) h N set = Ret st' ->
  exists w', passesW place f st h N set = Ret w' /\ flat w' = st' /\ gst w' /\ (base_new (wm st) -> base_new (wm w')) /\
    (forall nd, nth_error (wnodes st) h = Some nd -> proof nd = n0 -> (left nd + 1 < right nd <= length set)%nat -> base_new (wm w')).
Proof.
  induction f as [|f IH]; intros st h st' G E; cbn [passes passesW] in *; unfold addr in *; [discriminate|].
  destruct (pass (S (length set)) (flat st) (Some h) false N set) as [[st1 b]| |] eqn:E1; try discriminate.
  destruct (pass_sim (S (length set)) st (Some h) false st1 b G E1) as (w1 & -> & <- & G1 & B1 & B2). cbn [bind] in *.
  destruct b.
  - destruct (IH w1 h st' G1 E) as (w' & R1 & R2 & R3 & R4 & _). exists w'. conj; auto.
    intros nd E' Hp Hb. apply R4. eapply B2; eauto.
  - injection E as <-. exists w1. conj; auto. intros nd E' Hp Hb. eapply B2; eauto.
Qed.
End Sim.

(** ** writing an array that belongs to one number only *)
Lemma put_length : forall A a ws, (a < length A)%nat -> length (put A a ws) = length A.
Proof. intros. unfold put. now apply length_update. Qed.
Lemma at_put : forall A a ws b, (a < length A)%nat -> at_arr (put A a ws) b = if (b =? a)%nat then ws ++ skipn (length ws) (at_arr A a) else at_arr A b.
Proof.
  intros A a ws b H. unfold at_arr at 1. unfold put.
  destruct (Nat.lt_ge_cases b (length A)) as [L|L].
  - apply nth_error_nth. rewrite nth_update by exact H. destruct (b =? a)%nat; [reflexivity|].
    unfold at_arr. now apply nth_error_nth'.
  - rewrite nth_overflow by (rewrite length_update; lia). destruct (Nat.eqb_spec b a); [lia|].
    unfold at_arr. now rewrite nth_overflow.
Qed.
Lemma put_cap : forall A a ws b, (a < length A)%nat -> (length ws <= length (at_arr A a))%nat ->
  length (at_arr (put A a ws) b) = length (at_arr A b).
Proof.
  intros A a ws b H L. rewrite at_put by exact H. destruct (Nat.eqb_spec b a) as [->|]; [|reflexivity].
  rewrite app_length, skipn_length. lia.
Qed.
Lemma nonempty_iff : forall A : list (list Z), Forall (fun a => a <> []) A <-> forall b, (b < length A)%nat -> (0 < length (at_arr A b))%nat.
Proof.
  intros A. rewrite Forall_forall. split; intros H.
  - intros b L. specialize (H (at_arr A b) (nth_In _ _ L)). destruct (at_arr A b); [congruence|cbn; lia].
  - intros x Hx ->. destruct (In_nth _ _ [] Hx) as (b & L & E). specialize (H b L). unfold at_arr in H. rewrite E in H. cbn in H. lia.
Qed.

(** what a store does: [z] is the slice it may work in, [z'] the one it returns *)
Record effect (A : list (list Z)) (z : option slice) (A' : list (list Z)) (z' : option slice) (ws : list Z) : Prop := Effect {
  e_len : (length A <= length A')%nat;
  e_cap : forall b, (b < length A)%nat -> length (at_arr A' b) = length (at_arr A b);
  e_frame : forall b, (b < length A)%nat -> (forall s, z = Some s -> arr s <> b) -> at_arr A' b = at_arr A b;
  e_new : forall b, (length A <= b < length A')%nat -> (0 < length (at_arr A' b))%nat;
  e_wf : wf_abs A' z';
  e_val : contents A' z' = ws;
  e_where : forall s', z' = Some s' -> (length A <= arr s')%nat \/ exists s, z = Some s /\ arr s' = arr s
}.
Lemma fill_none_effect : forall A z ws, effect A z (fst (fill A None ws)) (snd (fill A None ws)) ws.
Proof.
  intros A z ws. destruct (fill_none A ws) as (ext & s & -> & F1 & F2 & F3 & F4). cbn [fst snd]. constructor; auto.
  - rewrite app_length. lia.
  - intros b L. now rewrite at_app.
  - intros b L _. now apply at_app.
  - intros b L. apply (nonempty_iff ext) with (b := (b - length A)%nat) in F1; [|rewrite app_length in L; lia].
    unfold at_arr in *. rewrite app_nth2 by lia. exact F1.
  - intros s' ->. left. exact F3.
Qed.
Lemma fill_effect : forall A z ws, wf_abs A z -> effect A z (fst (fill A z ws)) (snd (fill A z ws)) ws.
Proof.
  intros A z ws W. destruct z as [s|]; [|apply fill_none_effect]. destruct W as [W1 W2]. cbn [fill].
  destruct (Nat.leb_spec (length ws) (cap A s)) as [L|L].
  - cbn [fst snd]. constructor.
    + rewrite put_length by exact W1. lia.
    + intros b _. now apply put_cap.
    + intros b _ Hb. rewrite at_put by exact W1. destruct (Nat.eqb_spec b (arr s)); [|reflexivity]. subst b. now destruct (Hb s eq_refl).
    + intros b Hb. rewrite put_length in Hb by exact W1. lia.
    + cbn [wf_abs arr len]. rewrite put_length by exact W1. split; [exact W1|]. unfold cap. cbn [arr]. now rewrite put_cap.
    + cbn [contents arr len]. rewrite at_put, Nat.eqb_refl by exact W1.
      now rewrite firstn_app, Nat.sub_diag, firstn_all, firstn_O, app_nil_r.
    + intros s' [= <-]. right. eauto.
  - destruct ws as [|x ws]; [cbn in L; lia|]. apply (fill_none_effect A (Some s) (x :: ws)).
Qed.

Lemma effect_trans : forall A s A1 A' z' ws, (arr s < length A)%nat -> (len s <= cap A s)%nat ->
  length A1 = length A -> (forall b, length (at_arr A1 b) = length (at_arr A b)) ->
  (forall b, b <> arr s -> at_arr A1 b = at_arr A b) -> effect A1 (Some s) A' z' ws -> effect A (Some s) A' z' ws.
Proof.
  intros A s A1 A' z' ws W1 W2 L1 C1 F1 [E1 E2 E3 E4 E5 E6 E7]. constructor; auto.
  - lia.
  - intros b Hb. rewrite E2 by lia. apply C1.
  - intros b Hb Hs. rewrite E3 by (try lia; auto). apply F1. intros ->. now apply (Hs s).
  - intros b Hb. apply E4. lia.
  - intros s' Hs. destruct (E7 s' Hs) as [X|X]; [left; lia|auto].
Qed.

Section Exp1.
Variable place : Z -> Z -> Z -> scratch.
Lemma expNN_effect : forall A z x y m v, wf_abs A z ->
  effect A z (fst (expNN place A z x y m v)) (snd (expNN place A z x y m v)) (words v).
Proof.
  intros A z x y m v W. unfold expNN. match goal with |- context [if ?b then _ else _] => destruct b end; [now apply fill_effect|].
  destruct z as [s|]; [|apply fill_none_effect]. destruct W as [W1 W2].
  set (J := firstn (cap A s) (junk (place x y m))).
  assert (LJ : (length J <= length (at_arr A (arr s)))%nat) by (unfold J, cap; rewrite firstn_length; lia).
  assert (X : effect (put A (arr s) J) (Some s) (fst (if reuse (place x y m) then fill (put A (arr s) J) (Some s) (words v) else fill (put A (arr s) J) None (words v)))
    (snd (if reuse (place x y m) then fill (put A (arr s) J) (Some s) (words v) else fill (put A (arr s) J) None (words v))) (words v)).
  { destruct (reuse _); [|apply fill_none_effect]. apply fill_effect. cbn [wf_abs]. rewrite put_length by exact W1.
    split; [exact W1|]. unfold cap. rewrite put_cap by auto. exact W2. }
  apply (effect_trans A s (put A (arr s) J)); [exact W1|exact W2|now apply put_length| | |exact X].
  - intros b. now apply put_cap.
  - intros b Hb. rewrite at_put by exact W1. destruct (Nat.eqb_spec b (arr s)); [contradiction|reflexivity].
Qed.

(** no other number uses the array of number [z] *)
Definition alone (w : wmem) (z : nat) : Prop := forall q oz oq sz sq, q <> z ->
  nth_error (objs w) z = Some oz -> nth_error (objs w) q = Some oq -> abs oz = Some sz -> abs oq = Some sq -> arr sz <> arr sq.

Lemma effect_set : forall w z oz A' z' ws nb, wf w -> nth_error (objs w) z = Some oz -> effect (arrays w) (abs oz) A' z' ws -> alone w z ->
  let w' := set_obj w z A' (BInt nb z') in
  wf w' /\ (forall q, q <> z -> value w' q = value w q) /\ alone w' z /\ length (objs w') = length (objs w) /\
  (forall q, q <> z -> nth_error (objs w') q = nth_error (objs w) q).
Proof.
  intros w z oz A' z' ws nb W Hz E AL w'. pose proof (nth_lt _ _ _ _ Hz) as Lz.
  assert (NT : forall i, nth_error (objs w') i = if (i =? z)%nat then Some (BInt nb z') else nth_error (objs w) i)
    by (intros i; unfold w'; cbn [set_obj objs]; now apply nth_update).
  assert (KW : forall s, wf_abs (arrays w) s -> wf_abs A' s).
  { intros [s|]; [|auto]. intros [H1 H2]. cbn [wf_abs]. unfold cap in *. rewrite (e_cap _ _ _ _ _ E) by exact H1.
    pose proof (e_len _ _ _ _ _ E). split; [lia|exact H2]. }
  split; [|split; [|split; [|split]]].
  - destruct W as [Wa Wo]. split.
    + unfold w'. cbn [set_obj arrays]. apply nonempty_iff. intros b Hb.
      destruct (Nat.lt_ge_cases b (length (arrays w))) as [L|L].
      * rewrite (e_cap _ _ _ _ _ E) by exact L. exact (proj1 (nonempty_iff _) Wa b L).
      * apply (e_new _ _ _ _ _ E). lia.
    + apply Forall_forall. intros o Ho. destruct (In_nth_error _ _ Ho) as (i & Ei). rewrite NT in Ei.
      unfold w'. cbn [set_obj arrays]. destruct (i =? z)%nat.
      * injection Ei as <-. exact (e_wf _ _ _ _ _ E).
      * apply KW. rewrite Forall_forall in Wo. apply Wo. eapply nth_error_In; eauto.
  - intros q Hq. unfold value. rewrite NT. destruct (Nat.eqb_spec q z); [contradiction|].
    destruct (nth_error (objs w) q) as [oq|] eqn:Eq; [|reflexivity]. cbn [option_map]. f_equal.
    unfold ival, w'. cbn [set_obj arrays]. replace (contents A' (abs oq)) with (contents (arrays w) (abs oq)); [reflexivity|].
    destruct (abs oq) as [sq|] eqn:Sq; [|reflexivity]. cbn [contents]. f_equal. symmetry.
    pose proof (wf_nth w q oq W Eq) as B. rewrite Sq in B. destruct B as [B _].
    apply (e_frame _ _ _ _ _ E); [exact B|]. intros s Hs. exact (AL q oz oq s sq Hq Hz Eq Hs Sq).
  - intros q o oq sz sq Hq E1 E2 S1 S2. rewrite NT in E1, E2. rewrite Nat.eqb_refl in E1. injection E1 as <-.
    destruct (Nat.eqb_spec q z); [contradiction|]. cbn [abs] in S1.
    pose proof (wf_nth w q oq W E2) as B. rewrite S2 in B. destruct B as [B _].
    destruct (e_where _ _ _ _ _ E sz S1) as [X|(s & Hs & ->)]; [lia|]. exact (AL q oz oq s sq Hq Hz E2 Hs S2).
  - unfold w'. cbn [set_obj objs]. now apply length_update.
  - intros q Hq. rewrite NT. destruct (Nat.eqb_spec q z); [contradiction|reflexivity].
Qed.

(** exponentiation into a number with an array of its own disturbs no other number *)
Lemma Exp_alone : forall w z x y n oz xv yv nv, wf w -> nth_error (objs w) z = Some oz -> alone w z ->
  value w x = Some xv -> value w y = Some yv -> value w n = Some nv -> 0 <= yv -> exists w', Exp place w z x y n = Ret w' /\
  wf w' /\ (forall q, q <> z -> value w' q = value w q) /\ alone w' z /\ length (objs w') = length (objs w) /\
  (forall q, q <> z -> nth_error (objs w') q = nth_error (objs w) q) /\
  value w' z = Some (exp_recv (ival (arrays w) oz) xv yv nv).
Proof.
  intros w z x y n oz xv yv nv W Hz AL Hx Hy Hn P. unfold value in Hx, Hy, Hn. unfold Exp, exp_recv. rewrite Hz.
  destruct (nth_error (objs w) x) as [ox|]; [|discriminate]. destruct (nth_error (objs w) y) as [oy|]; [|discriminate].
  destruct (nth_error (objs w) n) as [on|]; [|discriminate]. cbn [option_map] in *. injection Hx as <-. injection Hy as <-. injection Hn as <-.
  cbn [deref bind]. set (A := arrays w) in *. set (xv := ival A ox) in *. set (yv := ival A oy) in *. set (nv := ival A on) in *.
  assert (S0 : exists v, big_exp xv yv nv = Some v).
  { unfold big_exp. destruct (nv =? 0); [eauto|]. destruct (Z.leb_spec 0 yv); [eauto|lia]. }
  destruct S0 as (v & ->).
  replace (yv <? 0) with false by (symmetry; apply Z.ltb_ge; exact P). cbn [andb fst snd].
  match goal with |- context [if ?b then None else abs oz] => set (z1 := if b then None else abs oz) end.
  assert (E : effect A (abs oz) (fst (expNN place A z1 (Z.abs xv) (Z.abs yv) (Z.abs nv) (Z.abs v))) (snd (expNN place A z1 (Z.abs xv) (Z.abs yv) (Z.abs nv) (Z.abs v))) (words (Z.abs v))).
  { unfold z1. match goal with |- context [if ?b then None else _] => destruct b end.
    - assert (E0 : forall a b c d, expNN place A None a b c d = fill A None (words d))
        by (intros; unfold expNN; match goal with |- (if ?b then _ else _) = _ => now destruct b end).
      rewrite E0. apply fill_none_effect.
    - apply expNN_effect. eapply wf_nth; eauto. }
  destruct (expNN place A z1 (Z.abs xv) (Z.abs yv) (Z.abs nv) (Z.abs v)) as [A' s]. cbn [fst snd] in E.
  eexists. split; [reflexivity|]. destruct (effect_set w z oz A' s _ (v <? 0) W Hz E AL) as (R1 & R2 & R3 & R4 & R5).
  conj; auto. unfold value. cbn [set_obj objs arrays]. rewrite nth_update, Nat.eqb_refl by (eapply nth_lt; eauto).
  cbn [option_map]. f_equal. apply ival_make. exact (e_val _ _ _ _ _ E).
Qed.
End Exp1.

(** storing a value in a number with an array of its own *)
Lemma assign_alone : forall w z v w', wf w -> alone w z -> assign w z v = Ret w' -> forall q, q <> z -> value w' q = value w q.
Proof.
  intros w z v w' W AL E. unfold assign in E. destruct (nth_error (objs w) z) as [oz|] eqn:Ez; [|discriminate]. cbn [deref bind] in E.
  pose proof (fill_effect (arrays w) (abs oz) (words (Z.abs v)) (wf_nth w z oz W Ez)) as F.
  destruct (fill (arrays w) (abs oz) (words (Z.abs v))) as [A s]. cbn [fst snd] in F. injection E as <-.
  now destruct (effect_set w z oz A s _ (v <? 0) W Ez F AL) as (_ & R & _).
Qed.

(** storing a value in a number whose slice another number has as well *)
Lemma assign_shared : forall w p q op oq s v w', wf w -> p <> q -> nth_error (objs w) p = Some op -> nth_error (objs w) q = Some oq ->
  abs op = Some s -> abs oq = Some s -> assign w p v = Ret w' ->
  value w' q = if (length (words (Z.abs v)) <=? cap (arrays w) s)%nat
    then Some ((if neg oq then -1 else 1) * digits (firstn (len s) (words (Z.abs v) ++ skipn (length (words (Z.abs v))) (at_arr (arrays w) (arr s)))))
    else value w q.
Proof.
  intros w p q op oq s v w' W Hpq Hp Hq Sp Sq E. unfold assign in E. rewrite Hp in E. cbn [deref bind] in E. rewrite Sp in E.
  pose proof (wf_nth w p op W Hp) as B. rewrite Sp in B. destruct B as [B _]. cbn [fill] in E.
  assert (NT : forall A o, nth_error (objs (set_obj w p A o)) q = Some oq).
  { intros A o. cbn [set_obj objs]. rewrite nth_update by (eapply nth_lt; eauto). destruct (Nat.eqb_spec q p); [congruence|exact Hq]. }
  destruct (Nat.leb_spec (length (words (Z.abs v))) (cap (arrays w) s)).
  - injection E as <-. unfold value. rewrite NT. cbn [option_map set_obj arrays]. f_equal. unfold ival. rewrite Sq. cbn [contents].
    rewrite at_put, Nat.eqb_refl by exact B. destruct (neg oq); lia.
  - unfold fresh in E. injection E as <-. unfold value. rewrite NT, Hq. cbn [option_map set_obj arrays]. f_equal.
    apply ival_app. rewrite Sq. pose proof (wf_nth w q oq W Hq) as B'. now rewrite Sq in B'.
Qed.
