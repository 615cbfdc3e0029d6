(** Every run of PreRaceModel is a run of the machine of TableModel with more steps in it. *)
From Coq Require Import ZArith Bool List Lia Permutation.
From Verif Require Import GoBig GoBigFacts ListUpd Sched TableModel TableProofs TabRaceModel TabRaceProofs PreRaceModel.
Import ListNotations.
Local Open Scope nat_scope.

Definition g_live (pc : gpc) : list addr :=
  match pc with G205a a _ _ | G205b a _ _ | G205c a _ _ | G205d a _ | G206 a => [a] | _ => [] end.
Definition p_live (pc : ppc) : list addr := match pc with P190a a | P190b a _ => [a] | _ => [] end.
Definition plive (s : pstate) : list addr :=
  flat_map g_live (p_gor s) ++ p_chan s ++ p_live (p_pc s) ++ p_other s.

Lemma gflat_upd : forall ws w pc pc', nth_error ws w = Some pc ->
  Permutation (g_live pc ++ flat_map g_live (upd ws w pc')) (g_live pc' ++ flat_map g_live ws).
Proof.
  induction ws as [|x ws IH]; intros [|w] pc pc' E; try discriminate E; cbn [upd flat_map] in *.
  - injection E as ->. rewrite !app_assoc. apply Permutation_app_tail, Permutation_app_comm.
  - specialize (IH _ _ pc' E). rewrite !app_assoc, (Permutation_app_comm (g_live pc)), <- !app_assoc, IH.
    rewrite !app_assoc. apply Permutation_app_tail, Permutation_app_comm.
Qed.

Section Sim.
Variable h1 : memory.
Variable np : addr.
Variable N : Z.
Variable cap : nat.
Variable V : Z.
Variable O0 : list addr.
Let prodp := length h1.
Let first := S (length h1).
Let pstep := p_step np prodp cap.
Hypothesis HN : get h1 np = N.
Hypothesis BN : np < length h1.
Hypothesis FN : ~ In np O0.
Hypothesis N1 : (1 < N)%Z.

(** a number of the call's memory that stays *)
Definition shared (a : addr) : Prop := a < length h1 /\ ~ In a O0.
(** what goroutine k has been given *)
Definition g_sim (h : memory) (pc : gpc) (o : option (Z * Z)) : Prop :=
  match pc with
  | G204 b e | G205a _ b e => shared b /\ shared e /\ o = Some (get h1 b, get h1 e)
  | G205b _ b e => shared e /\ o = Some (b, get h1 e)
  | G205c _ b e => o = Some (b, e)
  | G205d _ v => exists b e, o = Some (b, e) /\ v = exp_recv 0 b e N
  | G206 a => exists b e, o = Some (b, e) /\ get h a = exp_recv 0 b e N
  | G207 => o = None
  end.
(** prod, i, closed and the result of the other machine *)
Definition got (p : Z) (i : nat) : Z * nat * bool * option Z :=
  (p, S i, (S i =? cap + 1) || false, if S i =? cap + 1 then Some p else None).
Definition p_sim (h : memory) (pc : ppc) (i : nat) : Z * nat * bool * option Z :=
  match pc with
  | P188 => (get h prodp, i, false, None)
  | P190a a => got (emod (get h prodp * get h a) N) i
  | P190b a p => got (emod (p * get h a) N) i
  | P190c p => got (emod p N) i
  | P191a => got (emod (get h prodp) N) i
  | P191b p => got (emod p N) i
  | P191c p => got p i
  | P192 => got (get h prodp) i
  | P200 => (get h prodp, i, true, Some (get h prodp))
  end.
Record psim (c : pstate) (s : cpstate) : Prop := PSim {
  sp_N : cp_N s = N; sp_cap : cp_cap s = cap; sp_tot : cp_total s = cap + 1;
  sp_lg : length (cp_gor s) = length (p_gor c);
  sp_g : forall k pc o, nth_error (p_gor c) k = Some pc -> nth_error (cp_gor s) k = Some o -> g_sim (p_mem c) pc o;
  sp_chan : cp_chan s = map (get (p_mem c)) (p_chan c);
  sp_main : (cp_prod s, cp_i s, cp_closed s, cp_ret s) = p_sim (p_mem c) (p_pc c) (p_i c);
  sp_closed : p_closed c = match p_pc c with P200 => true | _ => false end;
  sp_h1 : forall a, shared a -> get (p_mem c) a = get h1 a;
  sp_len : first <= length (p_mem c);
  sp_nd : NoDup (plive c);
  sp_rng : forall a, In a (plive c) -> a <> prodp /\ a < length (p_mem c) /\ ~ shared a;
  sp_own : forall a, In a (flat_map g_live (p_gor c) ++ p_chan c ++ p_live (p_pc c)) -> first <= a }.

Lemma get_h1 : forall c s a, psim c s -> shared a -> get (p_mem c) a = get h1 a.
Proof. intros c s a I. apply (sp_h1 _ _ I). Qed.
Lemma shared_np : shared np.
Proof. split; [exact BN|exact FN]. Qed.

Definition g_rem (pc : gpc) : nat :=
  match pc with G204 _ _ => 5 | G205a _ _ _ => 4 | G205b _ _ _ => 3 | G205c _ _ _ => 2 | G205d _ _ => 1 | _ => 0 end.
Definition p_rem (pc : ppc) : nat :=
  match pc with P190a _ => 7 | P190b _ _ => 6 | P190c _ => 5 | P191a => 4 | P191b _ => 3 | P191c _ => 2 | P192 => 1 | _ => 0 end.
Definition prem (c : pstate) : nat := nsum g_rem (p_gor c) + p_rem (p_pc c).

Lemma g_sim_frame : forall h h' pc o, (forall a, In a (g_live pc) -> get h' a = get h a) -> g_sim h pc o -> g_sim h' pc o.
Proof.
  intros h h' pc o Ha. destruct pc; cbn [g_sim g_live] in *; auto.
  intros (b & e & -> & E). exists b, e. split; [reflexivity|]. now rewrite (Ha ret (or_introl eq_refl)).
Qed.
Lemma p_sim_frame : forall h h' pc i, get h' prodp = get h prodp -> (forall a, In a (p_live pc) -> get h' a = get h a) ->
  p_sim h' pc i = p_sim h pc i.
Proof.
  intros h h' pc i Hr Ha. destruct pc; cbn [p_sim p_live] in *; rewrite ?Hr; try reflexivity; now rewrite (Ha v (or_introl eq_refl)).
Qed.
Lemma live_g : forall c k pc a, nth_error (p_gor c) k = Some pc -> In a (g_live pc) -> In a (plive c).
Proof. intros c k pc a E Ia. apply in_or_app. left. apply in_flat_map. exists pc. split; [eapply nth_error_In, E|exact Ia]. Qed.

Lemma psame_h1 : forall h h' x, same_but h h' x -> (forall a, shared a -> get h a = get h1 a) -> first <= length h ->
  (forall a, x = Some a -> ~ shared a) -> forall a, shared a -> get h' a = get h1 a.
Proof.
  intros h h' x [L G] E F Hx a Ha. rewrite <- (E a Ha). apply G; [unfold first in F; destruct Ha; lia|].
  intros Hs. exact (Hx a (eq_sym Hs) Ha).
Qed.
Definition prest (c : pstate) (k : nat) : list addr :=
  flat_map g_live (upd (p_gor c) k G207) ++ p_chan c ++ p_live (p_pc c) ++ p_other c.
Lemma plive_split : forall c k pc, nth_error (p_gor c) k = Some pc -> Permutation (plive c) (g_live pc ++ prest c k).
Proof.
  intros c k pc E. unfold plive, prest. rewrite (app_assoc (g_live pc)). apply Permutation_app_tail.
  pose proof (gflat_upd _ _ _ G207 E) as P. cbn [g_live app] in P. now symmetry.
Qed.
Lemma in_prest : forall c k k' pc a, k' <> k -> nth_error (p_gor c) k' = Some pc -> In a (g_live pc) -> In a (prest c k).
Proof.
  intros c k k' pc a Hk E Ia. apply in_or_app. left. apply in_flat_map. exists pc. split; [|exact Ia].
  apply (nth_error_In _ k'). now rewrite nth_upd_neq.
Qed.
Definition set_g (c : pstate) (h : memory) (k : nat) (pc : gpc) : pstate :=
  PSt h (upd (p_gor c) k pc) (p_chan c) (p_closed c) (p_pc c) (p_i c) (p_other c).

Lemma pstutter_g : forall c s k pc o h' x pc', psim c s -> nth_error (p_gor c) k = Some pc ->
  nth_error (cp_gor s) k = Some o -> same_but (p_mem c) h' x ->
  (forall a, x = Some a -> first <= a /\ ~ In a (prest c k)) ->
  NoDup (g_live pc' ++ prest c k) -> (forall a, In a (g_live pc') -> first <= a < length h') ->
  g_sim h' pc' o -> psim (set_g c h' k pc') s.
Proof.
  intros c s k pc o h' x pc' I Ek Eo Sm Hx Nd Rg Ws. pose proof I as [IN Ic It Il Ig Ich Im Icl Ih Iln Ind Irg Iow].
  assert (Lk : k < length (p_gor c)) by (eapply nth_some_lt, Ek).
  assert (P : Permutation (plive (set_g c h' k pc')) (g_live pc' ++ prest c k)).
  { rewrite (plive_split _ k pc'); [|cbn [set_g p_gor]; now apply nth_upd_eq].
    apply Permutation_app_head. unfold prest. cbn [set_g p_gor p_chan p_pc p_other]. now rewrite upd_upd. }
  pose proof (plive_split _ _ _ Ek) as P0.
  assert (Fr : forall a, In a (prest c k) -> a < length (p_mem c) /\ (a <> prodp /\ ~ shared a) /\ get h' a = get (p_mem c) a).
  { intros a Ia. destruct (Irg a) as (A1 & A2 & A3); [rewrite P0; apply in_or_app; now right|]. split; [exact A2|]. split; [split; [exact A1|exact A3]|].
    apply (proj2 Sm); [exact A2|]. intros E. symmetry in E. now apply (Hx _ E). }
  assert (Fres : get h' prodp = get (p_mem c) prodp).
  { apply (proj2 Sm); [unfold prodp, first in *; lia|]. intros E. symmetry in E. destruct (Hx _ E) as [Hr _]. unfold prodp, first in Hr. lia. }
  constructor; try assumption; cbn [set_g p_mem p_gor p_chan p_pc p_i].
  - now rewrite length_upd.
  - intros k' pc1 o1 E1 E2. destruct (Nat.eq_dec k' k) as [->|Hne].
    + rewrite nth_upd_eq in E1 by exact Lk. injection E1 as <-. rewrite Eo in E2. injection E2 as <-. exact Ws.
    + rewrite nth_upd_neq in E1 by exact Hne.
      apply (g_sim_frame (p_mem c)); [intros a Ia; apply Fr, (in_prest c k k' pc1 a Hne E1 Ia)|now apply (Ig k')].
  - rewrite Ich. apply map_ext_in. intros a Ia. symmetry. apply Fr. apply in_or_app. right. apply in_or_app. now left.
  - rewrite Im. symmetry. apply p_sim_frame; [exact Fres|]. intros a Ia. apply Fr. apply in_or_app. right. apply in_or_app. right. apply in_or_app. now left.
  - apply (psame_h1 _ _ _ Sm Ih Iln). intros a E [Sa _]. destruct (Hx _ E) as [Hr _]. unfold first in Hr. lia.
  - destruct Sm as [Sl _]. lia.
  - now rewrite P.
  - intros a Ia. rewrite P in Ia. apply in_app_or in Ia. destruct Ia as [Ia|Ia].
    + destruct (Rg a Ia) as [R1 R2]. unfold first, prodp in *. split; [lia|]. split; [exact R2|]. intros [Sa _]. lia.
    + destruct (Fr a Ia) as (A1 & (A2 & A3) & _). destruct Sm as [Sl _]. split; [exact A2|]. split; [lia|exact A3].
  - intros a Ia. rewrite in_app_iff in Ia. destruct Ia as [Ia|Ia]; [|apply Iow; apply in_or_app; now right].
    assert (In a (g_live pc' ++ flat_map g_live (p_gor c))) as Ia'.
    { rewrite <- (gflat_upd _ _ _ pc' Ek). apply in_or_app. now right. }
    apply in_app_or in Ia'. destruct Ia' as [Ia'|Ia']; [now apply Rg|]. apply Iow. apply in_or_app. now left.
Qed.

Lemma pstutter_m : forall c s h' x pc' cl i', psim c s -> same_but (p_mem c) h' x -> (forall a, x = Some a -> a = prodp) ->
  (p_live pc' = p_live (p_pc c) \/ p_live pc' = []) ->
  p_sim h' pc' i' = p_sim (p_mem c) (p_pc c) (p_i c) -> cl = match pc' with P200 => true | _ => false end ->
  psim (PSt h' (p_gor c) (p_chan c) cl pc' i' (p_other c)) s.
Proof.
  intros c s h' x pc' cl i' I Sm Hx Hl Ec Hcl. pose proof I as [IN Ic It Il Ig Ich Im Icl Ih Iln Ind Irg Iow].
  assert (Sub : incl (plive (PSt h' (p_gor c) (p_chan c) cl pc' i' (p_other c))) (plive c) /\ NoDup (plive (PSt h' (p_gor c) (p_chan c) cl pc' i' (p_other c)))).
  { unfold plive in *. cbn [p_gor p_chan p_pc p_other]. destruct Hl as [->| ->]; [split; [apply incl_refl|exact Ind]|]. cbn [app]. split.
    - intros a Ia. rewrite !in_app_iff in *. tauto.
    - revert Ind. apply nodup_mid. }
  destruct Sub as [Sub Nd].
  assert (Fr : forall a, a <> prodp /\ a < length (p_mem c) /\ ~ shared a -> get h' a = get (p_mem c) a).
  { intros a (A1 & A2 & _). apply (proj2 Sm); [exact A2|]. intros E. symmetry in E. apply Hx in E. now apply A1. }
  constructor; try assumption; cbn [p_mem p_gor p_chan p_pc p_i p_closed].
  - intros k pc o E1 E2. apply (g_sim_frame (p_mem c)); [|now apply (Ig k)]. intros a Ia. apply Fr, Irg, (live_g _ _ _ _ E1 Ia).
  - rewrite Ich. apply map_ext_in. intros a Ia. symmetry. apply Fr, Irg. unfold plive. rewrite !in_app_iff. tauto.
  - now rewrite Im.
  - apply (psame_h1 _ _ _ Sm Ih Iln). intros a E [Sa _]. apply Hx in E. subst a. unfold prodp in Sa. lia.
  - destruct Sm as [Sl _]. lia.
  - intros a Ia. apply Sub, Irg in Ia. destruct Sm as [Sl _]. destruct Ia as (A1 & A2 & A3). split; [exact A1|]. split; [lia|exact A3].
  - intros a Ia. apply Iow. rewrite !in_app_iff in *. destruct Hl as [Hl|Hl]; rewrite Hl in Ia; cbn [In] in Ia; tauto.
Qed.

Definition pinv (c : pstate) (m : nat) : Prop :=
  exists s, psim c s /\ cp_inv N V s /\ m = 10 * cp_measure s + prem c.

Lemma gor_of : forall c s k pc, psim c s -> nth_error (p_gor c) k = Some pc ->
  exists o, nth_error (cp_gor s) k = Some o /\ g_sim (p_mem c) pc o.
Proof.
  intros c s k pc I E. destruct (nth_error (cp_gor s) k) as [o|] eqn:Eo.
  - exists o. split; [reflexivity|]. now apply (sp_g _ _ I k).
  - exfalso. apply nth_error_None in Eo. apply nth_some_lt in E. rewrite (sp_lg _ _ I) in Eo. lia.
Qed.
Lemma g_rng : forall c s k pc, psim c s -> nth_error (p_gor c) k = Some pc ->
  NoDup (g_live pc ++ prest c k) /\ forall a, In a (g_live pc) -> first <= a < length (p_mem c).
Proof.
  intros c s k pc I E. pose proof (plive_split _ _ _ E) as P. split; [eapply Permutation_NoDup; [exact P|apply (sp_nd _ _ I)]|].
  intros a Ia. assert (In a (plive c)) as Il by (rewrite P; apply in_or_app; now left). split; [|apply (sp_rng _ _ I _ Il)].
  apply (sp_own _ _ I). apply in_or_app. left. apply in_flat_map. exists pc. split; [eapply nth_error_In, E|exact Ia].
Qed.

Lemma gor_sim : forall c s k pc h' pc', psim c s -> nth_error (p_gor c) k = Some pc ->
  gor_step np (p_mem c) pc = Some (h', pc') -> psim (set_g c h' k pc') s /\ g_rem pc = S (g_rem pc').
Proof.
  intros c s k pc h' pc' I E Eo. destruct (gor_of _ _ _ _ I E) as (o & Es & Ws).
  destruct (g_rng _ _ _ _ I E) as [Nd Rg]. pose proof (sp_len _ _ I) as Il.
  assert (Keep : forall q, g_live q = g_live pc -> g_sim (p_mem c) q o -> psim (set_g c (p_mem c) k q) s).
  { intros q El Ws'. apply (pstutter_g c s k pc o _ None q I E Es (same_refl _ _)); [discriminate|now rewrite El|rewrite El; exact Rg|exact Ws']. }
  destruct pc as [b e|r b e|r b e|r b e|r v|r|]; try discriminate Eo; cbn [gor_step] in Eo; injection Eo as <- <-; cbn [g_live] in *.
  - split; [|reflexivity]. apply (pstutter_g c s k _ o _ None _ I E Es (same_app _ _)); [discriminate| | |exact Ws].
    + cbn [g_live app]. constructor; [|exact Nd]. intros Ia.
      assert (In (length (p_mem c)) (plive c)) as Ia' by (rewrite (plive_split _ _ _ E); exact Ia). apply (sp_rng _ _ I) in Ia'. lia.
    + intros a [<-|[]]. rewrite app_length. cbn [length]. lia.
  - split; [|reflexivity]. apply Keep; [reflexivity|]. cbn [g_sim] in *. destruct Ws as (Lb & Le & ->). split; [exact Le|]. now rewrite (get_h1 _ _ _ I Lb).
  - split; [|reflexivity]. apply Keep; [reflexivity|]. cbn [g_sim] in *. destruct Ws as (Le & ->). now rewrite (get_h1 _ _ _ I Le).
  - split; [|reflexivity]. apply Keep; [reflexivity|]. cbn [g_sim] in *. exists b, e. split; [exact Ws|]. now rewrite (get_h1 _ _ _ I shared_np), HN.
  - split; [|reflexivity]. destruct (Rg r (or_introl eq_refl)) as [R1 R2].
    apply (pstutter_g c s k _ o _ (Some r) _ I E Es (same_upd _ _ _ R2)); [|exact Nd|rewrite length_upd; exact Rg|].
    + intros a' Ea. injection Ea as <-. split; [exact R1|]. now inversion Nd.
    + cbn [g_sim] in *. destruct Ws as (b & e & -> & ->). exists b, e. split; [reflexivity|]. now rewrite nth_upd, Nat.eqb_refl by exact R2.
Qed.

Lemma main_sim : forall c s st, psim c s -> main_step np prodp cap c = Some st ->
  exists c', st = Ret c' /\ psim c' s /\ p_gor c' = p_gor c /\ p_rem (p_pc c) = S (p_rem (p_pc c')).
Proof.
  intros c s st I Eo. pose proof (sp_main _ _ I) as Ec. pose proof (sp_closed _ _ I) as Icl. pose proof (sp_len _ _ I) as Il.
  assert (Lr : prodp < length (p_mem c)) by (unfold prodp, first in *; lia).
  assert (Keep : forall pc', (p_live pc' = p_live (p_pc c) \/ p_live pc' = []) -> p_sim (p_mem c) pc' (p_i c) = p_sim (p_mem c) (p_pc c) (p_i c) ->
    p_closed c = match pc' with P200 => true | _ => false end -> psim (set_main_p c (p_mem c) pc') s).
  { intros pc' Hl E Hc. apply (pstutter_m c s _ None pc' _ _ I (same_refl _ _)); auto. discriminate. }
  assert (Put : forall v pc', p_live pc' = [] -> p_sim (upd (p_mem c) prodp v) pc' (p_i c) = p_sim (p_mem c) (p_pc c) (p_i c) ->
    p_closed c = match pc' with P200 => true | _ => false end -> psim (set_main_p c (upd (p_mem c) prodp v) pc') s).
  { intros v pc' Hl E Hc. apply (pstutter_m c s _ (Some prodp) pc' _ _ I (same_upd _ _ _ Lr)); auto. intros a Ea. now injection Ea. }
  unfold main_step in Eo. set (fin := S (p_i c) =? cap + 1) in Eo. assert (Ef : (S (p_i c) =? cap + 1) = fin) by reflexivity. clearbody fin.
  destruct (p_pc c) as [|v|v p|p| |p|p| |] eqn:Ek; try discriminate Eo; injection Eo as <-.
  - eexists. split; [reflexivity|]. split; [apply Keep; auto|split; reflexivity].
  - eexists. split; [reflexivity|]. split; [apply Keep; auto|split; reflexivity].
  - eexists. split; [reflexivity|]. split; [apply Put; auto|split; reflexivity]. cbn [p_sim]. now rewrite nth_upd, Nat.eqb_refl by exact Lr.
  - eexists. split; [reflexivity|]. split; [apply Keep; auto|split; reflexivity].
  - rewrite (get_h1 _ _ _ I shared_np), HN. unfold go_mod. destruct (Z.eqb_spec N 0) as [E0|_]; [lia|]. cbn [bind].
    eexists. split; [reflexivity|]. split; [apply Keep; auto|split; reflexivity].
  - eexists. split; [reflexivity|]. split; [apply Put; auto|split; reflexivity]. cbn [p_sim]. now rewrite nth_upd, Nat.eqb_refl by exact Lr.
  - eexists. split; [reflexivity|]. destruct fin.
    + split; [|split; reflexivity]. apply (pstutter_m c s _ None P200 _ _ I (same_refl _ _)); auto; [discriminate|].
      rewrite Ek. cbn [p_sim]. unfold got. now rewrite Ef.
    + split; [|split; reflexivity]. apply (pstutter_m c s _ None P188 _ _ I (same_refl _ _)); auto; [discriminate|].
      rewrite Ek. cbn [p_sim]. unfold got. now rewrite Ef.
Qed.

Lemma pinv_real : forall c s c' ch s', psim c s -> cp_inv N V s -> cp_step s ch = Some (Ret s') -> psim c' s' ->
  prem c' <= prem c + 7 -> exists m', pinv c' m' /\ m' < 10 * cp_measure s + prem c.
Proof.
  intros c s c' ch s' I T E I' Hr. destruct (cp_inv_step N V N1 s ch _ T E) as (s1 & E1 & T1 & M).
  injection E1 as <-. exists (10 * cp_measure s' + prem c'). split; [exists s'; auto|]. lia.
Qed.
Lemma no_closed_send : forall s k b e, cp_inv N V s -> nth_error (cp_gor s) k = Some (Some (b, e)) -> cp_closed s = false.
Proof.
  intros s k b e T E. destruct (cp_closed s) eqn:Ec; [|reflexivity].
  destruct (cp_inv_step N V N1 s (CPSend k) Panic T) as (s1 & E1 & _); [|discriminate E1]. unfold cp_step. now rewrite E, Ec.
Qed.

Lemma psim_step : forall c m ch st, pinv c m -> pstep c ch = Some st ->
  exists c' m', st = Ret c' /\ pinv c' m' /\ (if p_idle ch then m' <= m else m' < m).
Proof.
  intros c m ch st (s & I & T & ->) E. pose proof I as [IN Ic It Il Ig Ich Im Icl Ih Iln Ind Irg Iow].
  unfold pstep in E. destruct ch as [k|k| | |v|a v]; cbn [p_step p_idle] in *.
  - (* PWork *)
    destruct (nth_error (p_gor c) k) as [pc|] eqn:Ek; [|discriminate E].
    destruct (gor_step np (p_mem c) pc) as [[h' pc']|] eqn:Eo; [|discriminate E]. injection E as <-.
    destruct (gor_sim _ _ _ _ _ _ I Ek Eo) as [I' Hr].
    do 2 eexists. split; [reflexivity|]. split; [exists s; split; [exact I'|split; [exact T|reflexivity]]|].
    pose proof (nsum_upd _ g_rem _ _ _ pc' Ek) as Nr. unfold prem. cbn [set_g p_gor p_pc]. lia.
  - (* PSend *)
    destruct (nth_error (p_gor c) k) as [pc|] eqn:Ek; [|discriminate E]. destruct pc as [| | | | |a|]; try discriminate E.
    destruct (gor_of _ _ _ _ I Ek) as (o & Eo & Ws). cbn [g_sim] in Ws. destruct Ws as (b & e & -> & Ev).
    pose proof (no_closed_send _ _ _ _ T Eo) as Ec.
    assert (Hpc : p_closed c = false).
    { rewrite Icl. destruct (p_pc c); try reflexivity. cbn [p_sim] in Im. injection Im as _ _ X _. congruence. }
    rewrite Hpc in E. pose proof (nsum_upd _ g_rem _ _ _ G207 Ek) as Nr. cbn [g_rem] in Nr.
    pose proof (gflat_upd _ _ _ G207 Ek) as P. cbn [g_live app] in P.
    assert (Gs : forall k' pc1 o1, nth_error (upd (p_gor c) k G207) k' = Some pc1 -> nth_error (upd (cp_gor s) k None) k' = Some o1 -> g_sim (p_mem c) pc1 o1).
    { intros k' pc1 o1 E1 E2. destruct (Nat.eq_dec k' k) as [->|Hne].
      - rewrite nth_upd_eq in E1 by (eapply nth_some_lt, Ek). rewrite nth_upd_eq in E2 by (eapply nth_some_lt, Eo).
        injection E1 as <-. injection E2 as <-. reflexivity.
      - rewrite nth_upd_neq in E1 by exact Hne. rewrite nth_upd_neq in E2 by exact Hne. now apply (Ig k'). }
    destruct (Nat.ltb_spec (length (p_chan c)) cap) as [L|L].
    + injection E as <-.
      assert (Es : cp_step s (CPSend k) = Some (Ret {| cp_N := cp_N s; cp_cap := cp_cap s; cp_total := cp_total s;
                         cp_gor := upd (cp_gor s) k None; cp_chan := cp_chan s ++ [exp_recv 0 b e (cp_N s)]; cp_closed := cp_closed s;
                         cp_prod := cp_prod s; cp_i := cp_i s; cp_ret := cp_ret s |})).
      { unfold cp_step. rewrite Eo, Ec, Ich, map_length, Ic. now destruct (Nat.ltb_spec (length (p_chan c)) cap); [|lia]. }
      assert (Pl : Permutation (plive c) (plive (PSt (p_mem c) (upd (p_gor c) k G207) (p_chan c ++ [a]) false (p_pc c) (p_i c) (p_other c)))).
      { unfold plive. cbn [p_gor p_chan p_pc p_other]. rewrite <- P. cbn [app]. rewrite <- !app_assoc. cbn [app].
        rewrite (Permutation_middle (flat_map g_live (upd (p_gor c) k G207))). apply Permutation_app_head. apply Permutation_middle. }
      eexists. destruct (pinv_real _ _ (PSt (p_mem c) (upd (p_gor c) k G207) (p_chan c ++ [a]) false (p_pc c) (p_i c) (p_other c)) _ _ I T Es) as (m' & Vm & M); [| |exists m'; split; [reflexivity|split; [exact Vm|exact M]]].
      * constructor; try assumption; cbn [p_mem p_gor p_chan p_pc p_i p_closed cp_N cp_cap cp_total cp_gor cp_chan cp_prod cp_i cp_closed cp_ret]; auto.
        -- now rewrite !length_upd.
        -- rewrite map_app, Ich, IN. cbn [map]. now rewrite Ev.
        -- now rewrite <- Icl.
        -- now rewrite <- Pl.
        -- intros x Ix. apply Irg. now rewrite Pl.
        -- intros x Ix. apply Iow. rewrite !in_app_iff in *. rewrite <- P. cbn [In p_live] in *. tauto.
      * unfold prem. cbn [p_gor p_pc]. lia.
    + destruct (Nat.eqb_spec cap 0) as [Ez|]; [|discriminate E]. destruct (p_pc c) eqn:Epc; try discriminate E. injection E as <-.
      cbn [p_sim] in Im. injection Im as Ep Ei _ Er.
      assert (Hch : p_chan c = []).
      { destruct T as (_ & _ & _ & Hc & _ & Hret). rewrite Er in Hret. pose proof (nsum_upd _ gpend _ _ _ None Eo) as Ng. cbn [gpend] in Ng.
        rewrite Ich, map_length in Hc. destruct (p_chan c); [reflexivity|]. cbn [length] in Hc. lia. }
      assert (Es : cp_step s (CPSend k) = Some (cp_receive s (upd (cp_gor s) k None) [] (exp_recv 0 b e (cp_N s)))).
      { unfold cp_step. rewrite Eo, Ec, Ich, map_length, Ic, Er. destruct (Nat.ltb_spec (length (p_chan c)) cap); [lia|]. now rewrite (proj2 (Nat.eqb_eq _ _) Ez). }
      unfold cp_receive in Es. rewrite IN in Es. unfold go_mod in Es. destruct (Z.eqb_spec N 0) as [|_]; [lia|]. cbn [bind] in Es.
      assert (Pl : Permutation (plive c) (plive (PSt (p_mem c) (upd (p_gor c) k G207) [] false (P190a a) (p_i c) (p_other c)))).
      { unfold plive. rewrite Hch, Epc. cbn [p_gor p_chan p_pc p_other p_live]. rewrite <- P. cbn [app]. apply Permutation_middle. }
      eexists. destruct (pinv_real _ _ (PSt (p_mem c) (upd (p_gor c) k G207) [] false (P190a a) (p_i c) (p_other c)) _ _ I T Es) as (m' & Vm & M); [| |exists m'; split; [reflexivity|split; [exact Vm|exact M]]].
      * constructor; try assumption; cbn [p_mem p_gor p_chan p_pc p_i p_closed cp_N cp_cap cp_total cp_gor cp_chan cp_prod cp_i cp_closed cp_ret]; auto.
        -- now rewrite !length_upd.
        -- cbn [p_sim]. unfold got. rewrite Ep, Ei, Ec, It, Ev. reflexivity.
        -- now rewrite <- Pl.
        -- intros x Ix. apply Irg. now rewrite Pl.
        -- intros x Ix. apply Iow. rewrite !in_app_iff in *. rewrite <- P. cbn [In p_live] in *. tauto.
      * unfold prem. rewrite Epc. cbn [p_gor p_pc p_rem]. lia.
  - (* PRecv *)
    destruct (p_pc c) eqn:Epc; try discriminate E. destruct (p_chan c) as [|a q] eqn:Eq; [discriminate E|]. injection E as <-.
    cbn [p_sim map] in Im, Ich. injection Im as Ep Ei Ec Er.
    assert (Es : cp_step s CPRecv = Some (cp_receive s (cp_gor s) (map (get (p_mem c)) q) (get (p_mem c) a))).
    { unfold cp_step. now rewrite Er, Ich. }
    unfold cp_receive in Es. rewrite IN in Es. unfold go_mod in Es. destruct (Z.eqb_spec N 0) as [|_]; [lia|]. cbn [bind] in Es.
    assert (Pl : Permutation (plive c) (plive (PSt (p_mem c) (p_gor c) q (p_closed c) (P190a a) (p_i c) (p_other c)))).
    { unfold plive. rewrite Eq, Epc. cbn [p_gor p_chan p_pc p_other p_live]. apply Permutation_app_head. cbn [app]. apply Permutation_middle. }
    eexists. destruct (pinv_real _ _ (PSt (p_mem c) (p_gor c) q (p_closed c) (P190a a) (p_i c) (p_other c)) _ _ I T Es) as (m' & Vm & M); [| |exists m'; split; [reflexivity|split; [exact Vm|exact M]]].
    + constructor; try assumption; cbn [p_mem p_gor p_chan p_pc p_i p_closed cp_N cp_cap cp_total cp_gor cp_chan cp_prod cp_i cp_closed cp_ret]; auto.
      * cbn [p_sim]. unfold got. now rewrite Ep, Ei, Ec, It.
      * now rewrite <- Pl.
      * intros x Ix. apply Irg. now rewrite Pl.
      * intros x Ix. apply Iow. rewrite !in_app_iff in *. cbn [In p_live] in *. tauto.
    + unfold prem. rewrite Epc. cbn [p_gor p_pc p_rem]. lia.
  - (* PMain *)
    destruct (main_sim _ _ _ I E) as (c' & -> & I' & Hg & Hr).
    do 2 eexists. split; [reflexivity|]. split; [exists s; split; [exact I'|split; [exact T|reflexivity]]|].
    unfold prem. rewrite Hg. lia.
  - (* POther *)
    injection E as <-. do 2 eexists. split; [reflexivity|]. split; [exists s; split; [|split; [exact T|reflexivity]]|unfold prem; cbn [p_gor p_pc]; lia].
    assert (Fr : forall a, a < length (p_mem c) -> get (p_mem c ++ [v]) a = get (p_mem c) a) by (intros a; apply get_app).
    assert (Pl : Permutation (length (p_mem c) :: plive c) (plive (PSt (p_mem c ++ [v]) (p_gor c) (p_chan c) (p_closed c) (p_pc c) (p_i c) (length (p_mem c) :: p_other c)))).
    { unfold plive. cbn [p_gor p_chan p_pc p_other]. rewrite !app_assoc. apply Permutation_middle. }
    constructor; try assumption; cbn [p_mem p_gor p_chan p_pc p_i p_closed].
    + intros k pc o E1 E2. apply (g_sim_frame (p_mem c)); [|now apply (Ig k)]. intros a Ia. apply Fr, Irg, (live_g _ _ _ _ E1 Ia).
    + rewrite Ich. apply map_ext_in. intros a Ia. symmetry. apply Fr, Irg. unfold plive. rewrite !in_app_iff. tauto.
    + rewrite Im. symmetry. apply p_sim_frame; [apply Fr; unfold prodp, first in *; lia|].
      intros a Ia. apply Fr, Irg. unfold plive. rewrite !in_app_iff. tauto.
    + apply (psame_h1 _ _ _ (same_app (p_mem c) [v]) Ih Iln). discriminate.
    + rewrite app_length. lia.
    + apply (Permutation_NoDup Pl). constructor; [|exact Ind]. intros Ia. apply Irg in Ia. lia.
    + intros a Ia. rewrite <- Pl in Ia. rewrite app_length. cbn [length]. destruct Ia as [<-|Ia].
      * unfold prodp, first in *. split; [lia|]. split; [lia|]. intros [Sa _]. lia.
      * apply Irg in Ia. destruct Ia as (A1 & A2 & A3). split; [exact A1|]. split; [lia|exact A3].
  - (* POtherSet *)
    destruct (existsb (Nat.eqb a) (p_other c)) eqn:Ea; [|discriminate E]. injection E as <-.
    apply existsb_exists in Ea. destruct Ea as (a' & Ia & Ea). apply Nat.eqb_eq in Ea. subst a'.
    assert (La : In a (plive c)) by (unfold plive; rewrite !in_app_iff; tauto). destruct (Irg a La) as (R1 & R2 & R3).
    assert (Nr : forall b, In b (flat_map g_live (p_gor c) ++ p_chan c ++ p_live (p_pc c)) -> b <> a).
    { intros b Ib' ->. unfold plive in Ind. rewrite !app_assoc in Ind. rewrite !app_assoc in Ib'. exact (nodup_apart _ _ _ Ind Ib' Ia). }
    assert (Fr : forall b, b <> a -> get (upd (p_mem c) a v) b = get (p_mem c) b).
    { intros b Hb. rewrite nth_upd by exact R2. now destruct (Nat.eqb_spec b a). }
    do 2 eexists. split; [reflexivity|]. split; [exists s; split; [|split; [exact T|reflexivity]]|unfold prem; cbn [p_gor p_pc]; lia].
    constructor; try assumption; cbn [p_mem p_gor p_chan p_pc p_i p_closed].
    + intros k pc o E1 E2. apply (g_sim_frame (p_mem c)); [|now apply (Ig k)].
      intros b Ib'. apply Fr, Nr. rewrite !in_app_iff. left. apply in_flat_map. exists pc. split; [eapply nth_error_In, E1|exact Ib'].
    + rewrite Ich. apply map_ext_in. intros b Ib'. symmetry. apply Fr, Nr. rewrite !in_app_iff. tauto.
    + rewrite Im. symmetry. apply p_sim_frame; [apply Fr; unfold prodp, first in *; lia|].
      intros b Ib'. apply Fr, Nr. rewrite !in_app_iff. tauto.
    + apply (psame_h1 _ _ _ (same_upd (p_mem c) a v R2) Ih Iln). intros b Eb. injection Eb as <-. exact R3.
    + now rewrite length_upd.
    + intros b Ib'. rewrite length_upd. now apply Irg.
Qed.

Lemma psim_progress : forall c m, pinv c m ->
  (exists v, p_ret prodp c = Some v /\ fst v = prodp /\ snd v = (V mod N)%Z) \/
  (p_ret prodp c = None /\ exists ch st, p_idle ch = false /\ pstep c ch = Some st).
Proof.
  intros c m (s & I & T & _). pose proof I as [IN Ic It Il Ig Ich Im Icl Ih Iln Ind Irg Iow].
  assert (K : p_rem (p_pc c) <> 0 -> exists ch st, p_idle ch = false /\ pstep c ch = Some st).
  { intros Hr. exists PMain. unfold pstep, p_step, main_step. destruct (p_pc c); cbn [p_rem] in Hr; try lia; eexists; split; reflexivity. }
  unfold p_ret. destruct (Nat.eq_dec (p_rem (p_pc c)) 0) as [Hz|Hz].
  2:{ right. split; [destruct (p_pc c); try reflexivity; cbn [p_rem] in Hz; lia|now apply K]. }
  destruct (cp_inv_progress N V s T) as [(v & Ev & ->)|(Ev & ch & st & Es)].
  - destruct (p_pc c) eqn:Epc; cbn [p_rem] in Hz; try lia; cbn [p_sim] in Im; injection Im as Ep Ei Ecl Er; rewrite Er in Ev; [discriminate Ev|].
    left. eexists. split; [reflexivity|]. split; [reflexivity|]. cbn [snd]. now injection Ev.
  - destruct (p_pc c) eqn:Epc; cbn [p_rem] in Hz; try lia; cbn [p_sim] in Im; injection Im as Ep Ei Ecl Er; [|rewrite Er in Ev; discriminate Ev].
    right. split; [reflexivity|]. destruct ch as [k|]; unfold cp_step in Es.
    + destruct (nth_error (cp_gor s) k) as [[[b e]|]|] eqn:Eo; try discriminate Es.
      destruct (nth_error (p_gor c) k) as [pc|] eqn:Ek.
      2:{ exfalso. apply nth_error_None in Ek. apply nth_some_lt in Eo. lia. }
      pose proof (Ig k _ _ Ek Eo) as Ws.
      destruct pc as [b' e'|r b' e'|r b' e'|r b' e'|r v|r|];
        try (exists (PWork k); eexists; split; [reflexivity|]; unfold pstep, p_step; rewrite Ek; reflexivity); [|discriminate Ws].
      exists (PSend k). unfold pstep, p_step. rewrite Ek, Icl. rewrite Ecl, Ich, map_length, Ic in Es.
      destruct (length (p_chan c) <? cap); [eexists; split; reflexivity|]. destruct (cap =? 0); [|discriminate Es].
      rewrite Epc. eexists; split; reflexivity.
    + rewrite Er, Ich in Es. destruct (p_chan c) as [|a q] eqn:Eq; [discriminate Es|].
      exists PRecv. eexists. split; [reflexivity|]. unfold pstep, p_step. rewrite Epc, Eq. reflexivity.
Qed.

Definition powns (c : pstate) (k : nat) (a : addr) : Prop :=
  match k with
  | O => a = prodp \/ In a (p_live (p_pc c))
  | S w => exists pc, nth_error (p_gor c) w = Some pc /\ In a (g_live pc)
  end.
Lemma pnext_owned : forall c m k x, pinv c m -> p_next_of np prodp c k = Some x ->
  (x = Rd (at_addr x) /\ shared (at_addr x)) \/ powns c k (at_addr x).
Proof.
  intros c m [|w] x (s & I & T & _) E; cbn [p_next_of powns] in *.
  - destruct (p_pc c); cbn [p_next p_live] in *; try discriminate E; injection E as <-; cbn [at_addr]; auto.
    + right; right; now left.
    + left. split; [reflexivity|exact shared_np].
  - destruct (nth_error (p_gor c) w) as [pc|] eqn:Ew; [|discriminate E]. destruct (gor_of _ _ _ _ I Ew) as (o & _ & Ws).
    destruct pc; cbn [g_next g_sim] in *; try discriminate E; injection E as <-; cbn [at_addr].
    + left. split; [reflexivity|]. apply Ws.
    + left. split; [reflexivity|]. apply Ws.
    + left. split; [reflexivity|exact shared_np].
    + right. eexists. split; [reflexivity|]. now left.
Qed.
Lemma powns_one : forall c m j k a, pinv c m -> powns c j a -> powns c k a -> j = k.
Proof.
  intros c m j k a (s & I & T & _). pose proof (sp_rng _ _ I) as Rg. pose proof (sp_nd _ _ I) as Nd.
  assert (Sym : forall w pc, nth_error (p_gor c) w = Some pc -> In a (g_live pc) -> (a = prodp \/ In a (p_live (p_pc c))) -> False).
  { intros w pc Ew Ha [->|Hk].
    - apply (live_g _ _ _ _ Ew), Rg in Ha. now apply Ha.
    - unfold plive in Nd. apply (nodup_apart _ _ a Nd); [apply in_flat_map; exists pc; split; [eapply nth_error_In, Ew|exact Ha]|].
      rewrite !in_app_iff. tauto. }
  destruct j as [|j], k as [|k]; cbn [powns]; auto.
  - intros Hk (pc & Ew & Ha). destruct (Sym _ _ Ew Ha Hk).
  - intros (pc & Ew & Ha) Hk. destruct (Sym _ _ Ew Ha Hk).
  - intros (pc & Ej & Hj) (pc' & Ek & Hk). destruct (Nat.eq_dec j k) as [->|Hne]; [reflexivity|]. exfalso.
    destruct (g_rng _ _ _ _ I Ej) as [Nd' _]. apply (nodup_apart _ _ a Nd' Hj). apply (in_prest c j k pc' a); auto.
Qed.
Lemma powns_ours : forall c m k a, pinv c m -> powns c k a -> length h1 <= a /\ ~ In a (p_other c).
Proof.
  intros c m k a (s & I & T & _) Ho. pose proof (sp_rng _ _ I) as Rg. pose proof (sp_nd _ _ I) as Nd. pose proof (sp_own _ _ I) as Ow.
  assert (Ol : In a (p_other c) -> In a (plive c)) by (intros Ia; unfold plive; rewrite !in_app_iff; tauto).
  destruct k as [|w]; cbn [powns] in Ho.
  - destruct Ho as [->|Ho].
    + split; [unfold prodp; lia|]. intros Ia. apply Ol, Rg in Ia. now apply Ia.
    + split.
      * assert (first <= a) as Ia by (apply Ow; rewrite !in_app_iff; tauto). unfold first in Ia. lia.
      * intros Ia. unfold plive in Nd. rewrite !app_assoc in Nd. apply (nodup_apart _ _ a Nd); [rewrite !in_app_iff; tauto|exact Ia].
  - destruct Ho as (pc & Ew & Ho). destruct (g_rng _ _ _ _ I Ew) as [Nd' R]. split; [destruct (R a Ho) as [R1 _]; unfold first in R1; lia|].
    intros Ia. apply (nodup_apart _ _ a Nd' Ho). unfold prest. rewrite !in_app_iff. tauto.
Qed.
Lemma pinv_h1 : forall c m a, pinv c m -> a < length h1 -> ~ In a O0 -> a < length (p_mem c) /\ get (p_mem c) a = get h1 a.
Proof.
  intros c m a (s & I & _) L F. split; [pose proof (sp_len _ _ I) as H; unfold first in H; lia|]. apply (sp_h1 _ _ I). now split.
Qed.
Lemma pother_new : forall c m a, pinv c m -> In a (p_other c) -> ~ shared a.
Proof.
  intros c m a (s & I & _) Ia. assert (In a (plive c)) as L by (unfold plive; rewrite !in_app_iff; tauto). apply (sp_rng _ _ I _ L).
Qed.
End Sim.

(** ** the start *)
Lemma start_gor_sim : forall (h0 h1 : memory) (N : Z) (O0 rows : list addr) (h : memory) (all : list Z),
  Forall (fun p => p < length h0 /\ ~ In p O0) rows -> (forall a, In a O0 -> a < length h0) -> (forall i, i < length all -> length h0 + i < length h1 /\ get h1 (length h0 + i) = nth i all 0%Z) ->
  (forall a, a < length h0 -> get h1 a = get h0 a) -> length h0 <= length h1 ->
  forall subs i gs, skipn i all = subs -> start_all i (map (get h0) rows) subs = Ret gs ->
  exists gp, start_gor i (length subs) rows (length h0) = Ret gp /\ length gp = length gs /\
    (forall k pc o, nth_error gp k = Some pc -> nth_error (map Some gs) k = Some o -> g_sim h1 N O0 h pc o) /\
    flat_map g_live gp = [].
Proof.
  intros h0 h1 N O0 rows h all Fr Fo Ha H0 Hl. induction subs as [|e r IH]; intros i gs Es E.
  - cbn [start_all length start_gor] in *. injection E as <-. exists []. do 2 (split; [reflexivity|]). split; [|reflexivity]. intros [|k] pc o Ek; discriminate Ek.
  - cbn [start_all length start_gor] in *. unfold go_index in *. destruct (nth_error (map (get h0) rows) i) as [b|] eqn:Eb; [|discriminate E].
    cbn [bind] in E. destruct (start_all (S i) (map (get h0) rows) r) as [gs'| |] eqn:Er; try discriminate E. cbn [bind] in E. injection E as <-.
    destruct (nth_error rows i) as [p|] eqn:Ep; [|rewrite nth_error_map, Ep in Eb; discriminate Eb].
    rewrite nth_error_map, Ep in Eb. cbn [option_map] in Eb. injection Eb as <-.
    assert (Li : i < length all).
    { destruct (Nat.lt_ge_cases i (length all)) as [L|L]; [exact L|]. rewrite skipn_all2 in Es by exact L. discriminate Es. }
    assert (En : nth i all 0%Z = e) by (rewrite <- (firstn_skipn i all), Es, app_nth2; rewrite firstn_length, Nat.min_l by lia; [now rewrite Nat.sub_diag|lia]).
    assert (Es' : skipn (S i) all = r).
    { rewrite <- (firstn_skipn i all), Es, skipn_app, firstn_length, Nat.min_l by lia.
      rewrite skipn_all2 by (rewrite firstn_length; lia). replace (S i - i) with 1 by lia. reflexivity. }
    destruct (IH (S i) gs' Es' Er) as (gp & Eg & Lg & G & Fl). rewrite Eg. cbn [bind]. eexists. split; [reflexivity|].
    split; [cbn [length]; now rewrite Lg|]. split; [|exact Fl].
    intros [|k] pc o Ek Eo; cbn [nth_error map] in *; [|now apply (G k)]. injection Ek as <-. injection Eo as <-.
    destruct (Ha i Li) as [L Eg']. pose proof (proj1 (Forall_forall _ _) Fr p (nth_error_In _ _ Ep)) as [Lp Np].
    cbn [g_sim]. split; [split; [lia|exact Np]|]. split; [split; [exact L|intros Io; apply Fo in Io; lia]|]. now rewrite Eg', En, (H0 p Lp).
Qed.

Lemma start_gor_length : forall k i rows sub gs, start_gor i k rows sub = Ret gs -> length gs = k.
Proof.
  induction k as [|k IH]; intros i rows sub gs E; cbn [start_gor] in E; [now injection E as <-|].
  destruct (go_index rows i); try discriminate E. cbn [bind] in E. destruct (start_gor (S i) k rows sub) eqn:Er; try discriminate E.
  cbn [bind] in E. injection E as <-. cbn [length]. now rewrite (IH _ _ _ _ Er).
Qed.
Lemma g_rem_le : forall l, nsum g_rem l <= 5 * length l.
Proof. induction l as [|pc l IH]; [cbn; lia|]. unfold nsum in *. cbn [fold_right length]. destruct pc; cbn [g_rem]; lia. Qed.
Lemma p_start_inv : forall (h0 : memory) (O0 rows : list addr) (np : addr) (B N : Z) (t : PreTable) (x : Z),
  map (get h0) rows = pt_base t -> Forall (fun p => p < length h0 /\ ~ In p O0) rows -> get h0 np = N -> np < length h0 -> ~ In np O0 ->
  (forall a, In a O0 -> a < length h0) -> NoDup O0 ->
  (1 < N)%Z -> table_ok B N t -> (0 < x)%Z ->
  exists cap h1 s0 m, p_start h0 O0 rows (pt_n t) x = Ret (cap, length h1, s0) /\ firstn (length h0) h1 = h0 /\
    length h0 <= length h1 /\ get h1 np = N /\ np < length h1 /\ pinv h1 N cap (B ^ x)%Z O0 s0 m /\
    m <= 25 * (find_iCounter (pt_n t) (bit_len x) + 1).
Proof.
  intros h0 O0 rows np B N t x L1 L2 L3 L4 L5 L6 L7 HN Hok Hx. destruct (cp_init_inv B N t x HN Hok Hx) as (a0 & E0 & I0).
  unfold cp_init in E0. unfold p_start. rewrite <- L1, map_length in E0.
  destruct (negb (length rows =? length (pt_n t))); [discriminate E0|]. destruct (length rows <? 1); [discriminate E0|].
  destruct (x <? 1)%Z; [discriminate E0|]. cbv zeta in *. set (ic := find_iCounter (pt_n t) (bit_len x)) in *.
  destruct (split_x ic 1 (pt_n t) x) as [subX| |] eqn:Es; try discriminate E0. cbn [bind] in *.
  assert (Ls : length subX = ic + 1).
  { pose proof Hok as (K1 & K2 & K3 & Hr & Hm). pose proof (find_iCounter_lt (pt_n t) (bit_len x) ltac:(lia)) as Hc. fold ic in Hc.
    destruct (split_x_spec (pt_n t) (fun i Hi => proj1 (Hr i Hi)) Hm ic 0 x ltac:(lia) ltac:(lia)) as (subs & E & Lsub & _).
    rewrite Es in E. injection E as <-. lia. }
  destruct (start_all 0 (map (get h0) rows) subX) as [gs| |] eqn:Eg; try discriminate E0. cbn [bind] in E0. injection E0 as E0.
  set (h1 := h0 ++ subX ++ [0%Z]).
  assert (G0 : forall a, a < length h0 -> get h1 a = get h0 a) by (intros a La; unfold h1, get; now rewrite app_nth1).
  assert (Hl : length h0 + length subX < length h1) by (unfold h1; rewrite !app_length; cbn [length]; lia).
  destruct (start_gor_sim h0 h1 N O0 rows (h1 ++ [1%Z]) subX L2 L6) with (subs := subX) (i := 0) (gs := gs) as (gp & Ep & Lp & Gp & Fl).
  { intros i Li. split; [lia|]. unfold h1, get. rewrite app_nth2 by lia. rewrite app_nth1 by lia. f_equal. lia. }
  { exact G0. } { lia. } { reflexivity. } { exact Eg. }
  rewrite Ls in Ep. rewrite Ep. cbn [bind]. fold h1.
  exists ic, h1, (PSt (h1 ++ [1%Z]) gp [] false P188 0 O0), (10 * cp_measure a0 + prem (PSt (h1 ++ [1%Z]) gp [] false P188 0 O0)). split; [reflexivity|].
  split; [unfold h1; rewrite firstn_app, Nat.sub_diag, firstn_O, app_nil_r; apply firstn_all|].
  split; [lia|]. split; [now rewrite G0|]. split; [lia|]. split.
  2:{ pose proof (start_gor_length _ _ _ _ _ Ep) as Lg. pose proof (g_rem_le gp) as Lr. destruct I0 as (_ & _ & _ & Hc & _).
      subst a0. unfold cp_measure, prem in *. cbn [cp_i cp_chan cp_gor cp_total p_gor p_pc p_rem length] in *. fold ic. lia. }
  exists a0. split; [|split; [exact I0|reflexivity]].
  subst a0. constructor; cbn [cp_N cp_cap cp_total cp_gor cp_chan cp_prod cp_i cp_closed cp_ret p_mem p_gor p_chan p_pc p_i p_closed]; try reflexivity.
  - now rewrite map_length, Lp.
  - exact Gp.
  - cbn [p_sim]. unfold get. rewrite app_nth2, Nat.sub_diag by lia. reflexivity.
  - intros a [La _]. unfold get. now rewrite app_nth1.
  - rewrite app_length. cbn [length]. lia.
  - unfold plive. cbn [p_gor p_chan p_pc p_other p_live]. rewrite Fl. exact L7.
  - unfold plive. cbn [p_gor p_chan p_pc p_other p_live]. rewrite Fl. intros a Ia. cbn [app] in Ia. pose proof (L6 a Ia) as La.
    split; [lia|]. split; [rewrite app_length; lia|]. intros [_ Na]. now apply Na.
  - cbn [p_gor p_chan p_pc p_other p_live]. rewrite Fl. intros a [].
Qed.
