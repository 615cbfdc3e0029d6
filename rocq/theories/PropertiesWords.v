(** C123, C124: numbers that share their words. *)
From Coq Require Import ZArith Bool Lia List.
From Verif Require Import GoBig GoBigFacts Spec AccModel AccFacts AccProofs IterModel IterProofs WordModel WordFacts.
Import ListNotations.
Open Scope Z_scope.

(** ** specification *)
(** a memory as a Go program builds it: no empty arrays, every slice inside its array *)
Definition shaped (w : wmem) : Prop :=
  Forall (fun a => a <> []) (arrays w) /\
  Forall (fun o => match abs o with
                   | None => True
                   | Some s => (arr s < length (arrays w))%nat /\ (len s <= length (nth (arr s) (arrays w) []))%nat
                   end) (objs w).
(** every number that existed before reads as before *)
Definition kept (w w' : wmem) : Prop := forall p v, value w p = Some v -> value w' p = Some v.
(** storing anything in one of the numbers [ps] changes no other number of the program *)
Definition independent (w : wmem) (ps : list nat) : Prop :=
  forall p q v w', In p ps -> q <> p -> assign w p v = Ret w' -> value w' q = value w q.
(** the values at the addresses [l] *)
Definition read_all (w : wmem) (l : list nat) (vs : list Z) : Prop := Forall2 (fun p v => value w p = Some v) l vs.

Lemma shaped_wf : forall w, shaped w <-> wf w.
Proof. intros w. reflexivity. Qed.

(** ** proofs *)
Lemma value_view : forall w p, value w p = nth_error (view w) p.
Proof. intros. unfold value. now rewrite view_nth. Qed.
Lemma load_read : forall w ps vs, load_all (view w) ps = Ret vs -> read_all w ps vs.
Proof.
  intros w. unfold load_all, read_all. induction ps as [|p ps IH]; intros vs E; cbn [map_outcome] in E.
  - injection E as <-. constructor.
  - unfold load in E at 1. destruct (nth_error (view w) p) as [v|] eqn:Ep; [|discriminate]. cbn [deref bind] in E.
    destruct (map_outcome (load (view w)) ps) as [l| |]; try discriminate. cbn [bind] in E. injection E as <-.
    constructor; [now rewrite value_view|now apply IH].
Qed.

Lemma copy_view : forall w G g, value w G = Some g ->
  exists o, nth_error (objs w) G = Some o /\ copy_struct w G = Ret (WMem (arrays w) (objs w ++ [o]), length (objs w)) /\
    view (WMem (arrays w) (objs w ++ [o])) = view w ++ [g].
Proof.
  intros w G g E. unfold value in E. destruct (nth_error (objs w) G) as [o|] eqn:Eo; [|discriminate].
  exists o. split; [reflexivity|]. unfold copy_struct. rewrite Eo. split; [reflexivity|].
  unfold view. cbn [arrays objs]. rewrite map_app. cbn [map]. do 2 f_equal. now injection E.
Qed.

Section Run.
Variable place : Z -> Z -> Z -> scratch.
Lemma Iter_words : forall w G N set g n vals, shaped w -> value w G = Some g -> value w N = Some n -> read_all w set vals ->
  0 < n -> Forall (fun x => 0 <= x) vals -> set <> [] -> (2 <= length set)%nat \/ 0 <= g < n ->
  exists w' ps, ProveMembershipIterW place w G N set = Ret (w', ps) /\ good (arrays w) (objs w) w' /\
    read_all w' ps (wit g n 1 vals) /\ Forall (fun p => (length (objs w) <= p)%nat) ps /\
    ((2 <= length set)%nat -> base_new (arrays w) (objs w) w').
Proof.
  intros w G N set g n vals W HG HN Hset Hn Hv Hne Hb.
  destruct (copy_view w G g HG) as (o & Eo & EC & EV). unfold ProveMembershipIterW. rewrite EC. cbn [bind].
  set (w1 := WMem (arrays w) (objs w ++ [o])) in *.
  assert (G1 : good (arrays w) (objs w) w1).
  { assert (NTL : nth_error (objs w ++ [o]) (length (objs w)) = Some o) by (rewrite nth_error_app2, Nat.sub_diag by lia; reflexivity).
    assert (Big : forall i oi, (length (objs w) < i)%nat -> nth_error (objs w ++ [o]) i = Some oi -> False)
      by (intros i oi Hi E; apply nth_lt in E; rewrite app_length in E; cbn in E; lia).
    constructor; unfold w1; cbn [arrays objs].
    - destruct W as [Wa Wo]. split; cbn [arrays objs]; [exact Wa|]. apply Forall_app. split; [exact Wo|].
      constructor; [|constructor]. exact (wf_nth w G o (conj Wa Wo) Eo).
    - exists []. now rewrite app_nil_r.
    - now rewrite firstn_app, Nat.sub_diag, firstn_all, firstn_O, app_nil_r.
    - rewrite app_length. cbn. lia.
    - intros i oi Hi E. destruct (Big i oi Hi E).
    - intros i j oi oj si sj Hi Hj Hij E1 E2. destruct (Nat.eq_dec i (length (objs w))) as [->|Ni].
      + destruct (Big j oj ltac:(lia) E2).
      + destruct (Big i oi ltac:(lia) E1). }
  assert (Hset' : Forall2 (fun a v => nth_error (view w) a = Some v) set vals).
  { unfold read_all in Hset. eapply Forall2_impl; [|exact Hset]. intros a v E. now rewrite <- value_view. }
  rewrite value_view in HN.
  destruct (Iter_spec (view w) N set n vals g HN Hset' Hn Hv Hne Hb) as (m' & ps & E & L & Fr & ND & Ge & LD).
  rewrite Iter_ne in E by exact Hne. assert (Lv : length (view w) = length (objs w)) by apply map_length.
  rewrite Lv in E, Ge. rewrite <- EV in E. unfold addr in E.
  set (st0 := WState w1 [PNode 0 (length set) (length (objs w)) None]).
  change (State (view w1) [PNode 0 (length set) (length (objs w)) None]) with (flat st0) in E.
  destruct (passes (S (length set)) (flat st0) 0 N set) as [st1| |] eqn:EP; try discriminate. cbn [bind] in E.
  assert (Hnn : Forall (nonneg_at (arrays w) (objs w)) set).
  { clear - Hset Hv. unfold read_all in Hset. induction Hset as [|a v s vs E H IH]; constructor; inversion Hv; subst; auto.
    unfold value in E. destruct (nth_error (objs w) a) as [oa|] eqn:X; [|discriminate]. exists oa. split; [exact X|].
    injection E as ->. assumption. }
  assert (HN' : (N < length (objs w))%nat) by (apply nth_lt in HN; lia).
  assert (GS : gst (arrays w) (objs w) st0).
  { constructor; cbn [st0 wm wnodes]; [exact G1|]. constructor; [|constructor]. unfold node_ok. cbn [proof]. pose proof (g_len _ _ _ G1). lia. }
  destruct (passes_sim place (arrays w) (objs w) (proj1 (shaped_wf w) W) N HN' set Hnn (S (length set)) st0 0 st1 GS EP)
    as (w' & RW & <- & GS' & _ & BN).
  destruct (collect (S (length set)) (nodes (flat w')) (Some 0%nat)) as [ps'| |] eqn:EC'; try discriminate. cbn [bind] in E.
  injection E as E1 E2. subst ps'. exists (wm w'), ps.
  assert (RUN : (match set with [] => Ret (w1, []) | _ :: _ =>
       do st' <- passesW place (S (length set)) st0 0 N set; do ps <- collect (S (length set)) (wnodes st') (Some 0%nat); Ret (wm st', ps) end)
     = Ret (wm w', ps)).
  { destruct set as [|a s]; [congruence|]. rewrite RW. cbn [bind]. change (wnodes w') with (nodes (flat w')). rewrite EC'. reflexivity. }
  split; [exact RUN|]. split; [apply GS'|]. split; [|split; [exact Ge|]].
  - apply load_read. cbn [flat cells] in E1. rewrite E1. exact LD.
  - intros H2. apply (BN (PNode 0 (length set) (length (objs w)) None)); cbn; [reflexivity|reflexivity|lia].
Qed.
End Run.

Lemma good_kept : forall w w', shaped w -> good (arrays w) (objs w) w' -> kept w w'.
Proof.
  intros w w' W G p v E. unfold value in *. destruct (nth_error (objs w) p) as [o|] eqn:Eo; [|discriminate].
  rewrite (old_nth _ _ w' p o G Eo). cbn [option_map] in *. rewrite <- E. f_equal.
  apply (old_val (arrays w) (objs w) W w' p o G Eo).
Qed.
Lemma good_alone : forall w w' p, shaped w -> good (arrays w) (objs w) w' -> base_new (arrays w) (objs w) w' -> (length (objs w) <= p)%nat -> alone w' p.
Proof.
  intros w w' p W G B Hp q oz oq sz sq Hq E1 E2 S1 S2.
  destruct (Nat.lt_ge_cases q (length (objs w))) as [L|L].
  - assert (X : newer (length (arrays w)) (abs oz)).
    { destruct (Nat.eq_dec p (length (objs w))) as [->|Np]; [exact (B oz E1)|]. apply (g_new _ _ w' G p oz); [lia|exact E1]. }
    rewrite S1 in X. cbn in X.
    assert (Y : nth_error (objs w) q = Some oq).
    { destruct (nth_error (objs w) q) as [o|] eqn:Eo; [|apply nth_error_None in Eo; lia]. rewrite (old_nth _ _ w' q o G Eo) in E2. exact E2. }
    pose proof (wf_nth w q oq W Y) as Z. rewrite S2 in Z. cbn in Z. lia.
  - exact (g_sep _ _ w' G p q oz oq sz sq Hp L ltac:(auto) E1 E2 S1 S2).
Qed.

(** ** C123 *)
Theorem C123_partial : forall place w G N set g n vals, shaped w ->
  value w G = Some g -> value w N = Some n -> read_all w set vals ->
  0 < n -> Forall (fun x => 0 <= x) vals -> set <> [] -> (2 <= length set)%nat \/ 0 <= g < n ->
  exists w' ps proofs, ProveMembershipIterW place w G N set = Ret (w', ps) /\
    kept w w' /\ firstn (length (arrays w)) (arrays w') = arrays w /\
    read_all w' ps proofs /\ witnesses g n vals proofs /\
    ((2 <= length set)%nat -> independent w' ps).
Proof.
  intros place w G N set g n vals W HG HN Hs Hn Hv Hne Hb.
  destruct (Iter_words place w G N set g n vals W HG HN Hs Hn Hv Hne Hb) as (w' & ps & E & GD & RD & Ge & BN).
  exists w', ps, (wit g n 1 vals). split; [exact E|]. split; [now apply good_kept|]. split; [|split; [exact RD|split; [apply wit_witnesses|]]].
  - destruct (g_arr _ _ _ GD) as (e & ->). now rewrite firstn_app, Nat.sub_diag, firstn_all, firstn_O, app_nil_r.
  - intros H2 p q v w2 Hp Hq EA. eapply assign_alone; [apply (g_wf _ _ _ GD)| |exact EA|exact Hq].
    apply (good_alone w w' p W GD (BN H2)). rewrite Forall_forall in Ge. now apply Ge.
Qed.

(** one element: the single result is the parameter [base] itself, whose words are those of the
    caller's number. Whatever is stored in the result and fits shows up in the caller's number. *)
Theorem C123_single : forall place w G N x o s, shaped w ->
  nth_error (objs w) G = Some o -> abs o = Some s ->
  exists w' p, ProveMembershipIterW place w G N [x] = Ret (w', [p]) /\ p <> G /\ arrays w' = arrays w /\
    value w' p = value w G /\ kept w w' /\
    forall v w'', assign w' p v = Ret w'' ->
      let ws := words (Z.abs v) in
      value w'' G =
        if (length ws <=? length (nth (arr s) (arrays w) []))%nat
        then Some ((if neg o then -1 else 1) * digits (firstn (len s) (ws ++ skipn (length ws) (nth (arr s) (arrays w) []))))
        else value w G.
Proof.
  intros place w G N x o s W Eo Es. pose proof (nth_lt _ _ _ _ Eo) as LG.
  set (w' := WMem (arrays w) (objs w ++ [o])).
  assert (NP : nth_error (objs w') (length (objs w)) = Some o) by (unfold w'; cbn [objs]; rewrite nth_error_app2, Nat.sub_diag by lia; reflexivity).
  assert (NQ : nth_error (objs w') G = Some o) by (unfold w'; cbn [objs]; rewrite nth_error_app1 by lia; exact Eo).
  assert (W' : wf w').
  { destruct W as [Wa Wo]. split; unfold w'; cbn [arrays objs]; [exact Wa|]. apply Forall_app. split; [exact Wo|].
    constructor; [|constructor]. exact (wf_nth w G o (conj Wa Wo) Eo). }
  exists w', (length (objs w)). split; [|split; [lia|split; [reflexivity|split; [|split]]]].
  - unfold ProveMembershipIterW, copy_struct. rewrite Eo. reflexivity.
  - unfold value. rewrite NP, Eo. reflexivity.
  - intros p v E. unfold value, w' in *. cbn [objs arrays]. destruct (nth_error (objs w) p) as [op|] eqn:Ep; [|discriminate].
    rewrite nth_error_app1, Ep by (eapply nth_lt; eauto). exact E.
  - intros v w2 EA. cbv zeta. rewrite (assign_shared w' (length (objs w)) G o o s v w2 W' ltac:(lia) NP NQ Es Es EA).
    change (cap (arrays w') s) with (length (nth (arr s) (arrays w) [])). destruct (_ <=? _)%nat; [reflexivity|].
    unfold value. rewrite NQ, Eo. reflexivity.
Qed.

(** base 3, modulus 7, representatives 2 and -1, each in an array of its own *)
Definition neg_memory : wmem :=
  WMem [[3]; [7]; [2]; [1]] [BInt false (Some (Slice 0 1)); BInt false (Some (Slice 1 1)); BInt false (Some (Slice 2 1)); BInt true (Some (Slice 3 1))].
Theorem C123_inputs_refuted : exists w G N set, shaped w /\ read_all w (G :: N :: set) [3; 7; 2; -1] /\
  forall place, exists w' ps, ProveMembershipIterW place w G N set = Ret (w', ps) /\
    value w' G = Some 5 /\ ~ kept w w'.
Proof.
  exists neg_memory, 0%nat, 1%nat, [2; 3]%nat. split; [|split].
  - split; cbn [neg_memory arrays objs].
    + repeat constructor; discriminate.
    + repeat constructor; cbn; lia.
  - repeat constructor.
  - intros place. eexists. eexists. split; [vm_compute; reflexivity|]. split; [reflexivity|].
    intros K. specialize (K 0%nat 3 eq_refl). discriminate K.
Qed.
(** one positive representative *)
Theorem C123_results_refuted : exists w G N set, shaped w /\ read_all w (G :: N :: set) [3; 7; 2] /\
  forall place, exists w' ps, ProveMembershipIterW place w G N set = Ret (w', ps) /\ kept w w' /\ ~ independent w' ps.
Proof.
  exists neg_memory, 0%nat, 1%nat, [2]%nat.
  assert (W : shaped neg_memory) by (split; cbn [neg_memory arrays objs]; [repeat constructor; discriminate|repeat constructor; cbn; lia]).
  split; [exact W|]. split; [repeat constructor|]. intros place.
  destruct (C123_single place neg_memory 0 1 2 (BInt false (Some (Slice 0 1))) (Slice 0 1) W eq_refl eq_refl)
    as (w' & p & E & Hp & EA & Ev & K & H).
  exists w', [p]. split; [exact E|]. split; [exact K|]. intros I.
  assert (X : exists w2, assign w' p 5 = Ret w2).
  { unfold assign. unfold value in Ev. destruct (nth_error (objs w') p) as [o|]; [|discriminate]. cbn [deref bind].
    destruct (fill _ _ _) as [A s]. eauto. }
  destruct X as (w2 & X). specialize (H 5 w2 X). specialize (I p 0%nat 5 w2 (or_introl eq_refl) ltac:(auto) X).
  specialize (K 0%nat 3 eq_refl). rewrite K in I. cbn in H. rewrite I in H. vm_compute in H. discriminate H.
Qed.

(** AccAndProveIter: the accumulator is always a number of the caller's own *)
Theorem C123_AccAndProveIter_partial : forall place w G N rep g n vals, shaped w ->
  value w G = Some g -> value w N = Some n -> read_all w rep vals ->
  0 < n -> 0 <= g < n -> Forall (fun x => 0 <= x) vals -> rep <> [] ->
  exists w' acc ps proofs, AccAndProveIterW place w G N rep = Ret (w', (acc, ps)) /\
    kept w w' /\ value w' acc = Some (g ^ product vals mod n) /\ read_all w' ps proofs /\ witnesses g n vals proofs /\
    independent w' [acc] /\ ((2 <= length rep)%nat -> independent w' (acc :: ps)).
Proof.
  intros place w G N rep g n vals W HG HN Hs Hn Hg Hv Hne.
  destruct (Iter_words place w G N rep g n vals W HG HN Hs Hn Hv Hne (or_intror Hg)) as (w1 & ps & E & GD & RD & Ge & BN).
  pose proof (good_kept w w1 W GD) as K1. pose proof (g_wf _ _ _ GD) as W1.
  unfold AccAndProveIterW. rewrite E. cbn [bind].
  destruct rep as [|r0 rep]; [congruence|]. destruct vals as [|v0 vals]; [inversion Hs|].
  destruct ps as [|p0 ps]; [inversion RD|]. cbn [go_index nth_error deref bind].
  set (pw := g ^ (1 * product vals) mod n) in *.
  assert (V0 : value w1 p0 = Some pw) by (inversion RD; assumption).
  assert (P0 : value w1 r0 = Some v0) by (apply K1; inversion Hs; assumption).
  unfold AccumulateNewW.
  assert (NS : exists w2 o, NewSet w1 p0 = Ret (w2, length (objs w1)) /\ wf w2 /\ objs w2 = objs w1 ++ [o] /\ kept w1 w2 /\
     newer (length (arrays w1)) (abs o) /\ (forall q, q <> length (objs w1) -> value w2 q = value w1 q)).
  { unfold NewSet. unfold value in V0. destruct (nth_error (objs w1) p0) as [o0|] eqn:E0; [|discriminate]. cbn [deref bind].
    destruct (fill_none (arrays w1) (contents (arrays w1) (abs o0))) as (ext & s & -> & F1 & F2 & F3 & F4).
    set (w2 := WMem (arrays w1 ++ ext) (objs w1 ++ [BInt (neg o0) s])).
    assert (VQ : forall q, q <> length (objs w1) -> value w2 q = value w1 q).
    { intros q Hq. rewrite !value_view. unfold w2. rewrite view_add by exact W1.
      assert (Lv : length (view w1) = length (objs w1)) by apply map_length.
      destruct (Nat.lt_ge_cases q (length (objs w1))) as [L|L].
      - now rewrite nth_error_app1 by (rewrite Lv; exact L).
      - rewrite (proj2 (nth_error_None (view w1) q)) by (rewrite Lv; exact L).
        apply nth_error_None. rewrite app_length, Lv. cbn. lia. }
    exists w2, (BInt (neg o0) s). split; [reflexivity|]. split; [|split; [reflexivity|split; [|split; [exact F3|exact VQ]]]].
    - destruct W1 as [Wa Wo]. split; unfold w2; cbn [arrays objs]; [now apply Forall_app|].
      apply Forall_app. split; [|constructor; [exact F2|constructor]]. eapply Forall_impl; [|exact Wo]. intros; now apply wf_abs_app.
    - intros p v Ep. rewrite VQ; [exact Ep|]. intros ->. unfold value in Ep.
      rewrite (proj2 (nth_error_None (objs w1) _)) in Ep by lia. discriminate. }
  destruct NS as (w2 & o & -> & W2 & EO & K2 & NO & VQ). cbn [bind].
  assert (NZ : nth_error (objs w2) (length (objs w1)) = Some o) by (rewrite EO, nth_error_app2, Nat.sub_diag by lia; reflexivity).
  assert (NL : forall q oq, nth_error (objs w2) q = Some oq -> q <> length (objs w1) -> nth_error (objs w1) q = Some oq).
  { intros q oq Hq Nq. rewrite EO in Hq. destruct (Nat.lt_ge_cases q (length (objs w1))) as [L|L].
    - now rewrite nth_error_app1 in Hq by lia.
    - apply nth_lt in Hq. rewrite app_length in Hq. cbn in Hq. lia. }
  assert (AL : alone w2 (length (objs w1))).
  { intros q oz oq sz sq Hq E1 E2 S1 S2. rewrite NZ in E1. injection E1 as <-. rewrite S1 in NO. cbn in NO.
    pose proof (wf_nth w1 q oq W1 (NL q oq E2 Hq)) as B. rewrite S2 in B. cbn in B. lia. }
  assert (Hv0 : 0 <= v0) by (inversion Hv; assumption).
  destruct (Exp_alone place w2 (length (objs w1)) p0 r0 N o pw v0 n W2 NZ AL (K2 _ _ V0) (K2 _ _ P0) (K2 _ _ (K1 _ _ HN)) Hv0)
    as (w3 & -> & W3 & VQ3 & AL3 & L3 & NQ3 & VA). cbn [bind].
  assert (LT : forall p v, value w1 p = Some v -> p <> length (objs w1)).
  { intros p v Ep ->. unfold value in Ep. rewrite (proj2 (nth_error_None (objs w1) _)) in Ep by lia. discriminate. }
  assert (K3 : kept w1 w3) by (intros p v Ep; rewrite VQ3 by (eapply LT; eauto); now apply K2).
  exists w3, (length (objs w1)), (p0 :: ps), (wit g n 1 (v0 :: vals)). split; [reflexivity|].
  split; [intros p v Ep; apply K3, K1; exact Ep|]. split; [|split; [|split; [apply wit_witnesses|split]]].
  - rewrite VA. f_equal. unfold exp_recv, big_exp. destruct (Z.eqb_spec n 0); [lia|]. destruct (Z.leb_spec 0 v0); [|lia].
    rewrite powmod_spec by lia. rewrite (Z.abs_eq n) by lia.
    assert (X := witness_verifies g n (v0 :: vals) (wit g n 1 (v0 :: vals)) 0 pw v0 Hn Hv (wit_witnesses _ _ _) eq_refl eq_refl).
    exact X.
  - unfold read_all in *. eapply Forall2_impl; [|exact RD]. intros p v Ep. now apply K3.
  - intros p q v w4 [<-|[]] Hq EA. eapply assign_alone; [exact W3|exact AL3|exact EA|exact Hq].
  - intros H2 p q v w4 Hp Hq EA. eapply assign_alone; [exact W3| |exact EA|exact Hq].
    destruct Hp as [<-|Hp]; [exact AL3|].
    assert (Pge : (length (objs w) <= p)%nat) by (rewrite Forall_forall in Ge; now apply Ge).
    assert (Pl : p <> length (objs w1)).
    { assert (X : exists v, value w1 p = Some v).
      { clear - RD Hp. unfold read_all in RD. induction RD; [destruct Hp|]. destruct Hp as [->|Hp]; [eauto|auto]. }
      destruct X as (vp & X). eapply LT; eauto. }
    pose proof (good_alone w w1 p W GD (BN H2) Pge) as A1.
    intros q' oz oq sz sq Hq' E1 E2 S1 S2. destruct (Nat.eq_dec q' (length (objs w1))) as [->|Nq].
    + intros Heq. symmetry in Heq. revert Heq. exact (AL3 p oq oz sq sz ltac:(auto) E2 E1 S2 S1).
    + rewrite NQ3 in E1 by exact Pl. rewrite NQ3 in E2 by exact Nq.
      exact (A1 q' oz oq sz sq Hq' (NL _ _ E1 Pl) (NL _ _ E2 Nq) S1 S2).
Qed.

(** ProveMembershipIterParallel on a small set: the same, the base being copied twice *)
Theorem C123_parallel_small_partial : forall place w G N set g n vals, shaped w ->
  value w G = Some g -> value w N = Some n -> read_all w set vals ->
  0 < n -> Forall (fun x => 0 <= x) vals -> set <> [] -> (2 <= length set)%nat \/ 0 <= g < n ->
  exists w' ps proofs, ProveMembershipIterParallelSmallW place w G N set = Ret (w', ps) /\
    kept w w' /\ read_all w' ps proofs /\ witnesses g n vals proofs /\
    ((2 <= length set)%nat -> independent w' ps).
Proof.
  intros place w G N set g n vals W HG HN Hs Hn Hv Hne Hb. unfold ProveMembershipIterParallelSmallW.
  destruct (copy_view w G g HG) as (o & Eo & -> & EV). cbn [bind]. set (w1 := WMem (arrays w) (objs w ++ [o])) in *.
  assert (K1 : kept w w1).
  { intros p x E. unfold value in *. destruct (nth_error (objs w) p) as [op|] eqn:Ep; [|discriminate].
    unfold w1. cbn [objs arrays]. rewrite nth_error_app1, Ep by (eapply nth_lt; eauto). exact E. }
  assert (W1 : shaped w1).
  { destruct W as [Wa Wo]. split; unfold w1; cbn [arrays objs]; [exact Wa|]. apply Forall_app. split; [exact Wo|].
    constructor; [|constructor]. exact (wf_nth w G o (conj Wa Wo) Eo). }
  assert (HB : value w1 (length (objs w)) = Some g).
  { rewrite value_view, EV. assert (Lv : length (view w) = length (objs w)) by apply map_length.
    rewrite nth_error_app2, Lv, Nat.sub_diag by lia. reflexivity. }
  assert (Hs1 : read_all w1 set vals) by (unfold read_all in *; eapply Forall2_impl; [|exact Hs]; intros a x; apply K1).
  destruct (C123_partial place w1 (length (objs w)) N set g n vals W1 HB (K1 _ _ HN) Hs1 Hn Hv Hne Hb)
    as (w' & ps & proofs & E & K & _ & RD & WT & IN).
  exists w', ps, proofs. conj; auto. intros p v Ep. apply K, K1, Ep.
Qed.

(** base 3, modulus 101, representatives 2, 3 and 5 *)
Definition word_memory : wmem :=
  WMem [[3]; [101]; [2]; [3]; [5]] (map (fun a => BInt false (Some (Slice a 1))) (seq 0 5)).
Example C123_case : exists place w' acc ps, shaped word_memory /\
  AccAndProveIterW place word_memory 0 1 [2; 3; 4]%nat = Ret (w', (acc, ps)) /\ NoDup (acc :: ps) /\
  map (value w') (acc :: ps) = map Some [3 ^ 30 mod 101; 3 ^ 15 mod 101; 3 ^ 10 mod 101; 3 ^ 6 mod 101] /\
  map (value w') [0; 1; 2; 3; 4]%nat = map Some [3; 101; 2; 3; 5].
Proof.
  exists (fun _ _ _ => Scratch true [77]). do 3 eexists. split.
  { split; cbn [word_memory arrays objs map seq]; [repeat constructor; discriminate|repeat constructor; cbn; lia]. }
  split; [vm_compute; reflexivity|]. split; [|split; reflexivity].
  repeat (constructor; [cbn; intuition discriminate|]). constructor.
Qed.

(** ** C124 *)
Theorem C124_copies : forall input w vals, shaped w -> read_all w input vals ->
  exists w' ps, PublicPartW w input = Ret (w', ps) /\ read_all w' ps vals /\ kept w w' /\ arrays w' = arrays w /\
    Forall (fun p => (length (objs w) <= p)%nat) ps /\
    Forall2 (fun f p => nth_error (objs w') p = nth_error (objs w) f) input ps /\
    (forall p o, nth_error (objs w) p = Some o -> nth_error (objs w') p = Some o) /\ shaped w'.
Proof.
  induction input as [|f input IH]; intros w vals W H; inversion H as [|? v ? vs Hf Hr]; subst; cbn [PublicPartW].
  - exists w, []. conj; try (constructor; fail); auto. intros p v E. exact E.
  - destruct (copy_view w f v Hf) as (o & Eo & -> & EV). cbn [bind]. set (w1 := WMem (arrays w) (objs w ++ [o])) in *.
    assert (N1 : forall p op, nth_error (objs w) p = Some op -> nth_error (objs w1) p = Some op).
    { intros p op E. unfold w1. cbn [objs]. rewrite nth_error_app1 by (eapply nth_lt; eauto). exact E. }
    assert (K1 : kept w w1).
    { intros p x E. unfold value in *. destruct (nth_error (objs w) p) as [op|] eqn:Ep; [|discriminate]. rewrite (N1 p op Ep). exact E. }
    assert (NL : nth_error (objs w1) (length (objs w)) = Some o) by (unfold w1; cbn [objs]; rewrite nth_error_app2, Nat.sub_diag by lia; reflexivity).
    assert (W1 : shaped w1).
    { destruct W as [Wa Wo]. split; unfold w1; cbn [arrays objs]; [exact Wa|]. apply Forall_app. split; [exact Wo|].
      constructor; [|constructor]. exact (wf_nth w f o (conj Wa Wo) Eo). }
    assert (H1 : read_all w1 input vs) by (unfold read_all in *; eapply Forall2_impl; [|exact Hr]; intros a x; apply K1).
    destruct (IH w1 vs W1 H1) as (w' & ps & -> & R1 & R2 & R3 & R4 & R5 & R6 & R7). cbn [bind].
    exists w', (length (objs w) :: ps). split; [reflexivity|]. conj.
    + constructor; [|exact R1]. apply R2. unfold value in *. rewrite NL. rewrite Eo in Hf. exact Hf.
    + intros p x E. apply R2, K1, E.
    + exact R3.
    + constructor; [lia|]. eapply Forall_impl; [|exact R4]. unfold w1. cbn [objs]. intros p Hp. rewrite app_length in Hp. cbn in Hp. lia.
    + constructor; [rewrite Eo; now apply R6|].
      clear - R5 N1 Hr. revert vs Hr. induction R5 as [|f' p' fs ps' E R IH]; intros vs Hr; inversion Hr; subst; constructor; eauto.
      rewrite E. unfold value in H1. destruct (nth_error (objs w) f') as [o'|] eqn:X; [|discriminate]. now apply N1.
    + intros p op E. apply R6, N1, E.
    + exact R7.
Qed.
(** a store into the copy that fits into the words of the original shows up in the original, and the
    other way round *)
Theorem C124_shared : forall input w vals w' ps f p o s, shaped w -> read_all w input vals -> PublicPartW w input = Ret (w', ps) ->
  In (f, p) (combine input ps) -> nth_error (objs w) f = Some o -> abs o = Some s ->
  forall a b, (a, b) = (f, p) \/ (a, b) = (p, f) -> forall v w'', assign w' a v = Ret w'' ->
    let ws := words (Z.abs v) in
    value w'' b =
      if (length ws <=? length (nth (arr s) (arrays w) []))%nat
      then Some ((if neg o then -1 else 1) * digits (firstn (len s) (ws ++ skipn (length ws) (nth (arr s) (arrays w) []))))
      else value w f.
Proof.
  intros input w vals w' ps f p o s W H E Hin Eo Es a b Hab v w2 EA.
  destruct (C124_copies input w vals W H) as (w1 & ps1 & E1 & R1 & R2 & R3 & R4 & R5 & R6 & R7).
  rewrite E in E1. injection E1 as <- <-.
  assert (X : nth_error (objs w') p = nth_error (objs w) f /\ (length (objs w) <= p)%nat).
  { clear - Hin R4 R5. induction R5 as [|f' p' fs ps' Q R IH]; [destruct Hin|]. cbn [combine In] in Hin. inversion R4; subst.
    destruct Hin as [[= -> ->]|Hin]; [auto|]. now apply IH. }
  destruct X as [X Lp]. rewrite Eo in X. pose proof (nth_lt _ _ _ _ Eo) as Lf. pose proof (R6 f o Eo) as X'.
  assert (VF : value w' p = value w f /\ value w' f = value w f) by (unfold value; rewrite X, X', Eo, R3; auto).
  assert (EQ : value w2 b = if (length (words (Z.abs v)) <=? cap (arrays w') s)%nat
    then Some ((if neg o then -1 else 1) * digits (firstn (len s) (words (Z.abs v) ++ skipn (length (words (Z.abs v))) (at_arr (arrays w') (arr s)))))
    else value w' b).
  { destruct Hab as [[= -> ->]|[= -> ->]].
    - exact (assign_shared w' f p o o s v w2 R7 ltac:(lia) X' X Es Es EA).
    - exact (assign_shared w' p f o o s v w2 R7 ltac:(lia) X X' Es Es EA). }
  assert (VB : value w' b = value w f) by (destruct Hab as [[= -> ->]|[= -> ->]]; apply VF).
  cbv zeta. rewrite EQ, VB, R3. reflexivity.
Qed.
Theorem C124_refuted : exists w input w' ps, shaped w /\ PublicPartW w input = Ret (w', ps) /\ length ps = 6%nat /\
  ~ independent w' ps /\ ~ independent w' input.
Proof.
  set (w := WMem [[3]; [4]; [5]; [6]; [7]; [8]] (map (fun a => BInt false (Some (Slice a 1))) (seq 0 6))).
  exists w, (seq 0 6). do 2 eexists. split; [split; cbn [w arrays objs map seq]; [repeat constructor; discriminate|repeat constructor; cbn; lia]|].
  split; [reflexivity|]. split; [reflexivity|]. split; intros I.
  - specialize (I 6%nat 0%nat 9 _ (or_introl eq_refl) ltac:(discriminate) eq_refl). vm_compute in I. discriminate I.
  - specialize (I 0%nat 6%nat 9 _ (or_introl eq_refl) ltac:(discriminate) eq_refl). vm_compute in I. discriminate I.
Qed.
(** two words and four to spare; the copy is set to 1: the original keeps its upper word *)
Example C124_case : exists w' ps w'', let w := WMem [[3; 4; 0; 0; 0; 0]] [BInt false (Some (Slice 0 2))] in
  shaped w /\ value w 0 = Some (3 + 4 * 2 ^ 64) /\ PublicPartW w [0%nat] = Ret (w', ps) /\ ps = [1%nat] /\
  assign w' 1 1 = Ret w'' /\ value w'' 1 = Some 1 /\ value w'' 0 = Some (1 + 4 * 2 ^ 64).
Proof.
  do 3 eexists. cbv zeta. split; [split; cbn [arrays objs]; [repeat constructor; discriminate|repeat constructor; cbn; lia]|].
  repeat split.
Qed.

Print Assumptions C123_partial.
Print Assumptions C123_single.
Print Assumptions C123_inputs_refuted.
Print Assumptions C123_results_refuted.
Print Assumptions C123_AccAndProveIter_partial.
Print Assumptions C123_parallel_small_partial.
Print Assumptions C124_copies.
Print Assumptions C124_shared.
Print Assumptions C124_refuted.
