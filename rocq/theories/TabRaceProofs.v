(** Every run of TabRaceModel is a run of TableModel with more steps in it: who may touch which number. *)
From Coq Require Import ZArith Ascii Bool String List Lia Permutation.
From Verif Require Import GoBig ListUpd Sched TableModel TableProofs TabRaceModel.
Import ListNotations.
Local Open Scope nat_scope.

(** ** runs with a measure that is not a function of the state *)
Section Ghost.
Context {S C V : Type}.
Variable step : S -> C -> option (outcome S).
Variable ret : S -> option V.
Variable idle : C -> bool.
Variable Inv : S -> nat -> Prop.
Hypothesis Hstep : forall s m c st, Inv s m -> step s c = Some st ->
  exists s' m', st = Ret s' /\ Inv s' m' /\ (if idle c then m' <= m else m' < m).
Lemma ghost_run : forall sched s m st, Inv s m -> run step (Ret s) sched = Some st ->
  exists s' m', st = Ret s' /\ Inv s' m' /\ work idle sched + m' <= m.
Proof.
  induction sched as [|c sched IH]; intros s m st HI Hr; cbn [run] in Hr.
  - injection Hr as <-. exists s, m. repeat split; auto.
  - destruct (step s c) as [st1|] eqn:E; [|discriminate].
    destruct (Hstep _ _ _ _ HI E) as (s1 & m1 & -> & HI1 & Hm).
    destruct (IH _ _ _ HI1 Hr) as (s' & m' & -> & HI' & Hw). exists s', m'. split; [reflexivity|]. split; [assumption|].
    unfold work in *. cbn [filter]. destruct (idle c); cbn [negb]; [lia|]. cbn [length]. lia.
Qed.
Lemma ghost_ends : forall (P : V -> Prop) s0 m0, Inv s0 m0 ->
  (forall s m, Inv s m -> (exists v, ret s = Some v /\ P v) \/
     (ret s = None /\ exists c st', idle c = false /\ step s c = Some st')) ->
  always_ends step ret idle s0 P.
Proof.
  intros P s0 m0 H0 Hp. exists m0. intros sched st Hr. destruct (ghost_run _ _ _ _ H0 Hr) as (s & m & -> & HI & Hw).
  split; [lia|]. exists s. split; [reflexivity|]. eapply Hp, HI.
Qed.
End Ghost.

(** ** memory *)
Lemma nth_upd : forall (h : memory) a b v, a < length h -> get (upd h a v) b = if b =? a then v else get h b.
Proof.
  unfold get. induction h as [|x h IH]; intros a b v L; cbn [length] in L; [lia|].
  destruct a as [|a], b as [|b]; cbn [upd nth Nat.eqb]; auto. apply IH. lia.
Qed.
Lemma get_app : forall (h : memory) v a, a < length h -> get (h ++ v) a = get h a.
Proof. intros h v a L. unfold get. now apply app_nth1. Qed.
Lemma firstn_upd : forall (h : memory) k a v, k <= a -> firstn k (upd h a v) = firstn k h.
Proof.
  induction h as [|x h IH]; intros k a v L; [reflexivity|]. destruct k as [|k]; [reflexivity|].
  destruct a as [|a]; [lia|]. cbn [upd firstn]. f_equal. apply IH. lia.
Qed.
Lemma get_firstn : forall (h : memory) k a, a < k -> get (firstn k h) a = get h a.
Proof.
  unfold get. induction h as [|x h IH]; intros k a L; [now rewrite firstn_nil|]. destruct k as [|k]; [lia|].
  destruct a as [|a]; [reflexivity|]. cbn [firstn nth]. apply IH. lia.
Qed.

Definition w_live (pc : wpc) : list addr :=
  match pc with W94a a _ | W94b a _ | W94c a _ _ | W94d a _ | W95 a => [a] | _ => [] end.
Definition k_live (pc : kpc) : list addr := match pc with K54a o _ | K54b o _ _ => [o] | _ => [] end.
Definition live (s : astate) : list addr :=
  flat_map w_live (a_workers s) ++ a_out s ++ k_live (a_coll s) ++ a_other s.

Lemma flat_upd : forall ws w pc pc', nth_error ws w = Some pc ->
  Permutation (w_live pc ++ flat_map w_live (upd ws w pc')) (w_live pc' ++ flat_map w_live ws).
Proof.
  induction ws as [|x ws IH]; intros [|w] pc pc' E; try discriminate E; cbn [upd flat_map] in *.
  - injection E as ->. rewrite !app_assoc. apply Permutation_app_tail, Permutation_app_comm.
  - specialize (IH _ _ pc' E). rewrite !app_assoc, (Permutation_app_comm (w_live pc)), <- !app_assoc, IH.
    rewrite !app_assoc. apply Permutation_app_tail, Permutation_app_comm.
Qed.
Lemma nodup_mid : forall (A B K O : list addr), NoDup (A ++ B ++ K ++ O) -> NoDup (A ++ B ++ O).
Proof.
  intros A B K O H. rewrite app_assoc in *. apply (Permutation_NoDup (Permutation_app_swap_app _ _ _)) in H.
  induction K as [|x K IH]; [exact H|]. apply IH. now inversion H.
Qed.
Lemma nodup_apart : forall (A B : list addr) a, NoDup (A ++ B) -> In a A -> In a B -> False.
Proof.
  induction A as [|x A IH]; intros B a Nd Ia Ib; [destruct Ia|]. cbn [app] in Nd. inversion Nd as [|? ? Hx Hd]. subst.
  destruct Ia as [->|Ia]; [apply Hx, in_or_app; now right|]. now apply (IH B a).
Qed.

(** the memory has changed at [x] only, or has become longer *)
Definition same_but (h h' : memory) (x : option addr) : Prop :=
  length h <= length h' /\ forall a, a < length h -> Some a <> x -> get h' a = get h a.
Lemma same_upd : forall h x v, x < length h -> same_but h (upd h x v) (Some x).
Proof.
  intros h x v L. split; [now rewrite length_upd|]. intros a La Ha. rewrite nth_upd by exact L.
  destruct (Nat.eqb_spec a x); [now subst|reflexivity].
Qed.
Lemma same_app : forall h v, same_but h (h ++ v) None.
Proof. intros h v. split; [rewrite app_length; lia|]. intros a La _. now apply get_app. Qed.
Lemma same_refl : forall h x, same_but h h x.
Proof. intros h x. split; auto. Qed.

Section Sim.
Variable h0 : memory.
Variable rows : list addr.
Variable np : addr.
Variable t : Table.
Variable bytes : list ascii.
Variable R : nat.
Let n := t_n t.
Let resp := res_at h0.
Let optp := opt_at h0.
Variable theirs : list addr.
Let astep := a_step rows np (t_chunk t) bytes R resp optp theirs.
(** the caller's numbers that nobody changes *)
Definition still (a : addr) : Prop := a < length h0 /\ ~ In a theirs.
Let first := S (length h0 + R).

Hypothesis Hrows : map (get h0) rows = t_table t.
Hypothesis Brows : Forall still rows.
Hypothesis Hn : get h0 np = n.
Hypothesis Bn : still np.
Hypothesis Pn : (0 < n)%Z.
Hypothesis Bt : forall a, In a theirs -> a < length h0.

Definition w_sim (h : memory) (w : nat) (pc : wpc) (aw : worker) : Prop :=
  match pc with
  | W89 => aw = WLoop
  | W93 i => exists v, work_value t bytes i = Ret v /\ aw = WSend v
  | W94 i | W94a _ i => exists b, go_index (t_table t) (in_idx i) = Ret b /\ aw = WSend (exp_recv 0 b (get h (optp w)) n)
  | W94b _ b => aw = WSend (exp_recv 0 b (get h (optp w)) n)
  | W94c _ b e => aw = WSend (exp_recv 0 b e n)
  | W94d _ v => aw = WSend v
  | W95 a => aw = WSend (get h a)
  | W91 => aw = WExited
  end.
Definition after (p counter : Z) : collector := if (counter - 1 =? 0)%Z then CSend p else CLoop p (counter - 1).
Definition k_sim (h : memory) (pc : kpc) : collector :=
  match pc with
  | K53 c => CLoop (get h resp) c
  | K54a o c => after (emod (get h resp * get h o) n) c
  | K54b o r c => after (emod (r * get h o) n) c
  | K54c v c => after (emod v n) c
  | K55a c => after (emod (get h resp) n) c
  | K55b r c => after (emod r n) c
  | K55c v c => after v c
  | K58 => CSend (get h resp)
  | K59 => CExited
  end.
Definition m_sim (h : memory) (pc : mpc) : mainst := match pc with M63 i => MFeed i | M76 a => MReturned (get h a) end.

Record sim (c : astate) (s : tstate) : Prop := Sim {
  si_t : ts_table s = t; si_b : ts_bytes s = bytes; si_R : ts_R s = R;
  si_main : ts_main s = m_sim (a_mem c) (a_main c);
  si_in : ts_in s = a_in c;
  si_lw : length (ts_workers s) = R; si_la : length (a_workers c) = R;
  si_w : forall w pc aw, nth_error (a_workers c) w = Some pc -> nth_error (ts_workers s) w = Some aw -> w_sim (a_mem c) w pc aw;
  si_out : ts_out s = map (get (a_mem c)) (a_out c);
  si_coll : ts_coll s = k_sim (a_mem c) (a_coll c);
  si_h0 : forall a, still a -> get (a_mem c) a = get h0 a;
  si_len : first <= length (a_mem c);
  si_nd : NoDup (live c);
  si_rng : forall a, In a (live c) -> first <= a < length (a_mem c);
  si_res : forall a, a_main c = M76 a -> a = resp /\ a_coll c = K59 }.

Lemma get_h0 : forall c s a, sim c s -> still a -> get (a_mem c) a = get h0 a.
Proof. intros c s a S L. exact (si_h0 _ _ S a L). Qed.

Definition w_rem (pc : wpc) : nat :=
  match pc with W93 _ => 6 | W94 _ => 5 | W94a _ _ => 4 | W94b _ _ => 3 | W94c _ _ _ => 2 | W94d _ _ => 1 | _ => 0 end.
Definition k_rem (pc : kpc) : nat :=
  match pc with K54a _ _ => 6 | K54b _ _ _ => 5 | K54c _ _ => 4 | K55a _ => 3 | K55b _ _ => 2 | K55c _ _ => 1 | _ => 0 end.
Definition rem_of (c : astate) : nat := nsum w_rem (a_workers c) + k_rem (a_coll c).

(** what a worker or the collector has seen does not change when the memory changes elsewhere *)
Lemma w_sim_frame : forall h h' w pc aw, get h' (optp w) = get h (optp w) ->
  (forall a, In a (w_live pc) -> get h' a = get h a) -> w_sim h w pc aw -> w_sim h' w pc aw.
Proof.
  intros h h' w pc aw Ho Ha. destruct pc; cbn [w_sim w_live] in *; rewrite ?Ho; auto. rewrite Ha by now left. auto.
Qed.
Lemma k_sim_frame : forall h h' pc, get h' resp = get h resp -> (forall a, In a (k_live pc) -> get h' a = get h a) ->
  k_sim h' pc = k_sim h pc.
Proof. intros h h' pc Hr Ha. destruct pc as [| | | | | | | |]; cbn [k_sim k_live] in *; rewrite ?Hr; try reflexivity; now rewrite (Ha out (or_introl eq_refl)). Qed.

Lemma live_w : forall c w pc a, nth_error (a_workers c) w = Some pc -> In a (w_live pc) -> In a (live c).
Proof. intros c w pc a E Ia. apply in_or_app. left. apply in_flat_map. exists pc. split; [eapply nth_error_In, E|exact Ia]. Qed.

Lemma same_h0 : forall h h' x, same_but h h' x -> (forall a, still a -> get h a = get h0 a) -> first <= length h ->
  (forall a, x = Some a -> length h0 <= a \/ In a theirs) -> forall a, still a -> get h' a = get h0 a.
Proof.
  intros h h' x [L G] E F Hx a [La Na]. unfold first in F. rewrite G; [apply E; split; assumption|lia|].
  intros Hs. destruct (Hx a (eq_sym Hs)); [lia|contradiction].
Qed.

Definition rest (c : astate) (w : nat) : list addr :=
  flat_map w_live (upd (a_workers c) w W89) ++ a_out c ++ k_live (a_coll c) ++ a_other c.
Lemma live_split : forall c w pc, nth_error (a_workers c) w = Some pc -> Permutation (live c) (w_live pc ++ rest c w).
Proof.
  intros c w pc E. unfold live, rest. rewrite (app_assoc (w_live pc)). apply Permutation_app_tail.
  pose proof (flat_upd _ _ _ W89 E) as P. cbn [w_live app] in P. now symmetry.
Qed.
Lemma upd_upd : forall A (l : list A) k a b, upd (upd l k a) k b = upd l k b.
Proof. induction l as [|x l IH]; intros [|k] a b; cbn [upd]; auto. now rewrite IH. Qed.
Lemma in_rest_w : forall c w w' pc a, w' <> w -> nth_error (a_workers c) w' = Some pc -> In a (w_live pc) -> In a (rest c w).
Proof.
  intros c w w' pc a Hw E Ia. apply in_or_app. left. apply in_flat_map. exists pc. split; [|exact Ia].
  apply (nth_error_In _ w'). now rewrite nth_upd_neq.
Qed.

Lemma stutter_w : forall c s w pc aw h' x pc', sim c s -> nth_error (a_workers c) w = Some pc ->
  nth_error (ts_workers s) w = Some aw -> same_but (a_mem c) h' x ->
  (forall a, x = Some a -> length h0 < a /\ ~ In a (rest c w) /\ forall w', w' <> w -> w' < R -> a <> optp w') ->
  NoDup (w_live pc' ++ rest c w) -> (forall a, In a (w_live pc') -> first <= a < length h') ->
  w_sim h' w pc' aw -> sim (set_w c h' w pc') s.
Proof.
  intros c s w pc aw h' x pc' I Ew Eaw Sm Hx Nd Rg Ws. pose proof I as [It Ib IR Im Ii Ilw Ila Iw Io Ik Ih Il Ind Irg Ires].
  assert (Lw : w < R) by (rewrite <- Ila; eapply nth_some_lt, Ew).
  assert (P : Permutation (live (set_w c h' w pc')) (w_live pc' ++ rest c w)).
  { rewrite (live_split _ w pc'); [|cbn [set_w a_workers]; apply nth_upd_eq; now rewrite Ila].
    apply Permutation_app_head. unfold rest. cbn [set_w a_workers a_out a_coll a_other]. now rewrite upd_upd. }
  pose proof (live_split _ _ _ Ew) as P0.
  assert (Fr : forall a, In a (rest c w) -> a < length (a_mem c) /\ first <= a /\ get h' a = get (a_mem c) a).
  { intros a Ia. destruct (Irg a) as [A1 A2]; [rewrite P0; apply in_or_app; now right|]. split; [exact A2|]. split; [exact A1|].
    apply (proj2 Sm); [exact A2|]. intros E. symmetry in E. now apply (Hx _ E). }
  assert (Fres : get h' resp = get (a_mem c) resp).
  { apply (proj2 Sm); [unfold resp, res_at, first in *; lia|]. intros E. symmetry in E. destruct (Hx _ E) as [Hr _]. unfold resp, res_at in Hr. lia. }
  constructor; try assumption; cbn [set_w a_mem a_main a_in a_workers a_out a_coll].
  - rewrite Im. destruct (a_main c) as [i|a] eqn:Em; [reflexivity|]. cbn [m_sim]. destruct (Ires a eq_refl) as [-> _]. now rewrite Fres.
  - rewrite length_upd. exact Ila.
  - intros w' pc1 aw1 E1 E2. destruct (Nat.eq_dec w' w) as [->|Hne].
    + rewrite nth_upd_eq in E1 by (rewrite Ila; exact Lw). injection E1 as <-. rewrite Eaw in E2. injection E2 as <-. exact Ws.
    + rewrite nth_upd_neq in E1 by exact Hne. pose proof (nth_some_lt _ _ _ _ E1) as L1. rewrite Ila in L1.
      apply (w_sim_frame (a_mem c)); [|intros a Ia; apply Fr, (in_rest_w c w w' pc1 a Hne E1 Ia)|now apply Iw].
      apply (proj2 Sm); [unfold optp, opt_at, first in *; lia|]. intros E. symmetry in E. destruct (Hx _ E) as (_ & _ & Hd). now apply (Hd w').
  - rewrite Io. apply map_ext_in. intros a Ia. symmetry. apply Fr. apply in_or_app. right. apply in_or_app. now left.
  - rewrite Ik. symmetry. apply k_sim_frame; [exact Fres|]. intros a Ia. apply Fr. apply in_or_app. right. apply in_or_app. right. apply in_or_app. now left.
  - apply (same_h0 _ _ _ Sm Ih Il). intros a E. destruct (Hx _ E) as [Hr _]. left. lia.
  - destruct Sm as [Sl _]. lia.
  - now rewrite P.
  - intros a Ia. rewrite P in Ia. apply in_app_or in Ia. destruct Ia as [Ia|Ia]; [now apply Rg|].
    destruct (Fr a Ia) as (A1 & A2 & _). destruct Sm as [Sl _]. lia.
Qed.

Lemma stutter_k : forall c s h' x pc', sim c s -> same_but (a_mem c) h' x -> (forall a, x = Some a -> a = resp) ->
  a_coll c <> K59 -> (k_live pc' = k_live (a_coll c) \/ k_live pc' = []) -> ts_coll s = k_sim h' pc' -> sim (set_k c h' pc') s.
Proof.
  intros c s h' x pc' I Sm Hx Hk Hl Ec. pose proof I as [It Ib IR Im Ii Ilw Ila Iw Io Ik Ih Il Ind Irg Ires].
  assert (Sub : incl (live (set_k c h' pc')) (live c) /\ NoDup (live (set_k c h' pc'))).
  { unfold live in *. cbn [set_k a_workers a_out a_coll a_other]. destruct Hl as [->| ->]; [split; [apply incl_refl|exact Ind]|]. cbn [app]. split.
    - intros a Ia. rewrite !in_app_iff in *. tauto.
    - revert Ind. apply nodup_mid. }
  destruct Sub as [Sub Nd].
  assert (Fr : forall a, first <= a < length (a_mem c) -> get h' a = get (a_mem c) a).
  { intros a [A1 A2]. apply (proj2 Sm); [exact A2|]. intros E. symmetry in E. apply Hx in E. unfold resp, res_at, first in *. lia. }
  constructor; try assumption; cbn [set_k a_mem a_main a_in a_workers a_out a_coll].
  - rewrite Im. destruct (a_main c) as [i|a] eqn:Em; [reflexivity|]. now destruct (Ires a eq_refl).
  - intros w pc aw E1 E2. pose proof (nth_some_lt _ _ _ _ E1) as L1. rewrite Ila in L1. apply (w_sim_frame (a_mem c)).
    + apply (proj2 Sm); [unfold optp, opt_at, first in *; lia|]. intros E. symmetry in E. apply Hx in E. unfold resp, res_at, optp, opt_at in E. lia.
    + intros a Ia. apply Fr, Irg. apply (live_w _ _ _ _ E1 Ia).
    + now apply Iw.
  - rewrite Io. apply map_ext_in. intros a Ia. symmetry. apply Fr, Irg. unfold live. rewrite !in_app_iff. tauto.
  - apply (same_h0 _ _ _ Sm Ih Il). intros a E. apply Hx in E. subst a. left. unfold resp, res_at. lia.
  - destruct Sm as [Sl _]. lia.
  - intros a Ia. apply Sub, Irg in Ia. destruct Sm as [Sl _]. lia.
  - intros a E. now destruct (Ires a E).
Qed.

Variable g : Z.
Hypothesis Hn1 : (1 < n)%Z.
Hypothesis Hok : tbl_ok g n t.
Hypothesis Hlen : length bytes <= t_chunk t * length (t_table t).

Definition inv (c : astate) (m : nat) : Prop :=
  exists s, sim c s /\ t_inv g n t bytes R s /\ m = 10 * t_measure s + rem_of c.

Lemma inv_real : forall c s c' ch s', sim c s -> t_inv g n t bytes R s -> t_step s ch = Some (Ret s') -> sim c' s' ->
  t_idle ch = false -> rem_of c' <= rem_of c + 6 ->
  exists m', inv c' m' /\ m' < 10 * t_measure s + rem_of c.
Proof.
  intros c s c' ch s' I T E I' Hi Hr. destruct (t_inv_step g n t bytes R Hn1 Hok Hlen s ch _ T E) as (s1 & E1 & T1 & M).
  injection E1 as <-. rewrite Hi in M. exists (10 * t_measure s' + rem_of c'). split; [exists s'; auto|]. lia.
Qed.
Lemma nsum_rem : forall ws w pc pc', nth_error ws w = Some pc -> nsum w_rem (upd ws w pc') + w_rem pc = nsum w_rem ws + w_rem pc'.
Proof. intros. now apply nsum_upd. Qed.

Lemma worker_of : forall c s w pc, sim c s -> nth_error (a_workers c) w = Some pc ->
  exists aw, nth_error (ts_workers s) w = Some aw /\ w_sim (a_mem c) w pc aw.
Proof.
  intros c s w pc I E. destruct (nth_error (ts_workers s) w) as [aw|] eqn:Ea.
  - exists aw. split; [reflexivity|]. now apply (si_w _ _ I).
  - exfalso. apply nth_error_None in Ea. apply nth_some_lt in E. rewrite (si_lw _ _ I) in Ea. rewrite (si_la _ _ I) in E. lia.
Qed.
Lemma w_rng : forall c s w pc, sim c s -> nth_error (a_workers c) w = Some pc ->
  NoDup (w_live pc ++ rest c w) /\ forall a, In a (w_live pc) -> first <= a < length (a_mem c).
Proof.
  intros c s w pc I E. pose proof (live_split _ _ _ E) as P. split; [eapply Permutation_NoDup; [exact P|apply (si_nd _ _ I)]|].
  intros a Ia. apply (si_rng _ _ I). rewrite P. apply in_or_app. now left.
Qed.

Lemma work_sim : forall c s w pc o, sim c s -> t_inv g n t bytes R s -> nth_error (a_workers c) w = Some pc ->
  work_step rows np bytes optp (a_mem c) w pc = Some o ->
  exists h' pc', o = Ret (h', pc') /\ sim (set_w c h' w pc') s /\ w_rem pc = S (w_rem pc').
Proof.
  intros c s w pc o I T E Eo. destruct (worker_of _ _ _ _ I E) as (aw & Eaw & Ws).
  destruct (w_rng _ _ _ _ I E) as [Nd Rg].
  pose proof (si_len _ _ I) as Il. pose proof (si_la _ _ I) as Ila.
  assert (Lw : w < R) by (rewrite <- Ila; eapply nth_some_lt, E).
  assert (Keep : forall pc', w_live pc' = w_live pc -> w_sim (a_mem c) w pc' aw -> sim (set_w c (a_mem c) w pc') s).
  { intros pc' El Ws'. apply (stutter_w c s w pc aw _ None pc' I E Eaw (same_refl _ _)); [discriminate|now rewrite El|rewrite El; exact Rg|exact Ws']. }
  destruct pc as [|i|i|a i|a b|a b e|a v|a|]; try discriminate Eo; cbn [work_step] in Eo; injection Eo as <-; cbn [w_live] in *.
  - destruct Ws as (v & Ev & ->). unfold work_value in Ev. destruct (go_slice bytes (in_left i) (in_right i)) as [l| |]; try discriminate Ev.
    cbn [bind] in *. destruct (go_index (t_table t) (in_idx i)) as [b| |] eqn:Eb; try discriminate Ev. cbn [bind] in Ev. injection Ev as <-.
    do 2 eexists. split; [reflexivity|]. split; [|reflexivity].
    assert (Lo : optp w < length (a_mem c)) by (unfold optp, opt_at, first in *; lia).
    apply (stutter_w c s w _ _ _ (Some (optp w)) _ I E Eaw (same_upd _ _ _ Lo)); [|exact Nd|intros a []|].
    + intros a Ea. injection Ea as <-. split; [unfold optp, opt_at; lia|]. split.
      * intros Ia. assert (In (optp w) (live c)) as Ia' by (rewrite (live_split _ _ _ E); apply in_or_app; now right).
        apply (si_rng _ _ I) in Ia'. unfold optp, opt_at, first in Ia'. lia.
      * intros w' Hw _. unfold optp, opt_at. lia.
    + cbn [w_sim]. exists b. split; [exact Eb|]. rewrite nth_upd, Nat.eqb_refl by exact Lo. reflexivity.
  - do 2 eexists. split; [reflexivity|]. split; [|reflexivity].
    apply (stutter_w c s w _ _ _ None _ I E Eaw (same_app _ _)); [discriminate| | |].
    + cbn [w_live app]. constructor; [|exact Nd]. intros Ia.
      assert (In (length (a_mem c)) (live c)) as Ia' by (rewrite (live_split _ _ _ E); exact Ia). apply (si_rng _ _ I) in Ia'. lia.
    + intros a [<-|[]]. rewrite app_length. cbn [length]. lia.
    + cbn [w_sim] in *. destruct Ws as (b & Eb & ->). exists b. split; [exact Eb|]. rewrite get_app; [reflexivity|].
      unfold optp, opt_at, first in *. lia.
  - destruct Ws as (b & Eb & ->). unfold go_index in *. rewrite <- Hrows, nth_error_map in Eb.
    destruct (nth_error rows (in_idx i)) as [p|] eqn:Ep; [|discriminate Eb]. cbn [option_map deref bind] in *. injection Eb as <-.
    assert (Lp : still p) by (eapply Forall_nth in Brows; [exact Brows|exact Ep]).
    do 2 eexists. split; [reflexivity|]. split; [|reflexivity]. apply Keep; [reflexivity|]. cbn [w_sim]. now rewrite (get_h0 _ _ _ I Lp).
  - do 2 eexists. split; [reflexivity|]. split; [|reflexivity]. apply Keep; [reflexivity|]. exact Ws.
  - do 2 eexists. split; [reflexivity|]. split; [|reflexivity]. apply Keep; [reflexivity|]. cbn [w_sim] in *. rewrite Ws, (get_h0 _ _ _ I Bn), Hn. reflexivity.
  - do 2 eexists. split; [reflexivity|]. split; [|reflexivity]. destruct (Rg a (or_introl eq_refl)) as [R1 R2].
    apply (stutter_w c s w _ _ _ (Some a) _ I E Eaw (same_upd _ _ _ R2)); [|exact Nd|rewrite length_upd; exact Rg|].
    + intros a' Ea. injection Ea as <-. unfold first in R1. split; [lia|]. split; [now inversion Nd|].
      intros w' _ L'. unfold optp, opt_at. lia.
    + cbn [w_sim] in *. now rewrite nth_upd, Nat.eqb_refl by exact R2.
Qed.

Lemma coll_sim : forall c s o, sim c s -> coll_step np resp (a_mem c) (a_coll c) = Some o ->
  exists h' pc', o = Ret (h', pc') /\ sim (set_k c h' pc') s /\ k_rem (a_coll c) = S (k_rem pc').
Proof.
  intros c s o I Eo. pose proof (si_coll _ _ I) as Ec. pose proof (si_len _ _ I) as Il.
  assert (Lr : resp < length (a_mem c)) by (unfold resp, res_at, first in *; lia).
  assert (Keep : forall pc', a_coll c <> K59 -> (k_live pc' = k_live (a_coll c) \/ k_live pc' = []) -> ts_coll s = k_sim (a_mem c) pc' ->
    sim (set_k c (a_mem c) pc') s).
  { intros pc' Hk Hl E. apply (stutter_k c s _ None pc' I (same_refl _ _)); auto. discriminate. }
  assert (Put : forall v pc', a_coll c <> K59 -> k_live pc' = [] -> ts_coll s = k_sim (upd (a_mem c) resp v) pc' ->
    sim (set_k c (upd (a_mem c) resp v) pc') s).
  { intros v pc' Hk Hl E. apply (stutter_k c s _ (Some resp) pc' I (same_upd _ _ _ Lr)); auto. intros a Ea. now injection Ea. }
  destruct (a_coll c) as [k|o' k|o' r k|v k|k|r k|v k| |] eqn:Ek; try discriminate Eo; cbn [coll_step] in Eo; injection Eo as <-.
  - do 2 eexists. split; [reflexivity|]. split; [|reflexivity]. apply Keep; [discriminate|left; reflexivity|exact Ec].
  - do 2 eexists. split; [reflexivity|]. split; [|reflexivity]. apply Keep; [discriminate|right; reflexivity|exact Ec].
  - do 2 eexists. split; [reflexivity|]. split; [|reflexivity]. apply Put; [discriminate|reflexivity|].
    rewrite Ec. cbn [k_sim]. now rewrite nth_upd, Nat.eqb_refl by exact Lr.
  - do 2 eexists. split; [reflexivity|]. split; [|reflexivity]. apply Keep; [discriminate|left; reflexivity|exact Ec].
  - rewrite (get_h0 _ _ _ I Bn), Hn. unfold go_mod. destruct (Z.eqb_spec n 0) as [E0|_]; [lia|]. cbn [bind].
    do 2 eexists. split; [reflexivity|]. split; [|reflexivity]. apply Keep; [discriminate|left; reflexivity|exact Ec].
  - do 2 eexists. split; [reflexivity|]. split; [|cbn [k_rem]; now destruct (_ =? _)%Z].
    apply Put; [discriminate|now destruct (_ =? _)%Z|]. rewrite Ec. cbn [k_sim]. unfold after.
    destruct (_ =? _)%Z; cbn [k_sim]; now rewrite nth_upd, Nat.eqb_refl by exact Lr.
Qed.

Lemma nodup_move : forall (A B : list addr), Permutation A B -> NoDup A -> NoDup B.
Proof. intros A B P. now apply Permutation_NoDup. Qed.

Lemma sim_step : forall c m ch st, inv c m -> astep c ch = Some st ->
  exists c' m', st = Ret c' /\ inv c' m' /\ (if a_idle ch then m' <= m else m' < m).
Proof.
  intros c m ch st (s & I & T & ->) E. pose proof I as [It Ib IR Im Ii Ilw Ila Iw Io Ik Ih Il Ind Irg Ires].
  unfold astep in E. destruct ch as [|w|w|w| | | |w|w|v|a v]; cbn [a_step a_idle] in *.
  - (* AFeed *)
    destruct (a_main c) as [[|i]|a] eqn:Em; try discriminate E.
    destruct (Nat.ltb_spec (length (a_in c)) (4 * R)) as [L|L]; [|discriminate E]. injection E as <-. cbn [m_sim] in Im.
    assert (Es : t_step s TFeed = Some (Ret (set_main (set_in s (ts_in s ++ [{| in_left := S i - t_chunk t; in_right := S i; in_idx := (length bytes - S i) / t_chunk t |}])) (MFeed (S i - t_chunk t))))).
    { unfold t_step. rewrite Im, It, Ib, IR, Ii. now destruct (Nat.ltb_spec (length (a_in c)) (4 * R)); [|lia]. }
    eexists. destruct (inv_real _ _ (ASt (a_mem c) (M63 (S i - t_chunk t)) (a_in c ++ [{| in_left := S i - t_chunk t; in_right := S i; in_idx := (length bytes - S i) / t_chunk t |}]) (a_workers c) (a_out c) (a_coll c) (a_other c)) _ _ I T Es) as (m' & V & M); [|reflexivity| |exists m'; split; [reflexivity|split; [exact V|exact M]]].
    + constructor; try assumption; cbn [a_mem a_main a_in a_workers a_out a_coll set_main set_in ts_table ts_bytes ts_R ts_main ts_in ts_workers ts_out ts_coll]; auto; [now rewrite Ii|discriminate].
    + unfold rem_of. cbn [a_workers a_coll]. lia.
  - (* ATake *)
    destruct (nth_error (a_workers c) w) as [pc|] eqn:Ew; [|discriminate E]. destruct pc; try discriminate E.
    destruct (a_in c) as [|i q] eqn:Eq; [discriminate E|]. injection E as <-.
    destruct (worker_of _ _ _ _ I Ew) as (aw & Eaw & Ws). cbn [w_sim] in Ws. subst aw.
    pose proof T as (_ & _ & _ & _ & Fin & _). rewrite Ii in Fin. inversion Fin as [|? ? (v & Ev) _]. subst.
    assert (Es : t_step s (TTake w) = Some (Ret (set_worker (set_in s q) w (WSend v)))).
    { unfold t_step. rewrite Eaw, Ii, It, Ib, Ev. reflexivity. }
    pose proof (nsum_rem _ _ _ (W93 i) Ew) as Nr. cbn [w_rem] in Nr.
    pose proof (flat_upd _ _ _ (W93 i) Ew) as P. cbn [w_live app] in P.
    eexists. destruct (inv_real _ _ (ASt (a_mem c) (a_main c) q (upd (a_workers c) w (W93 i)) (a_out c) (a_coll c) (a_other c)) _ _ I T Es) as (m' & V & M); [|reflexivity| |exists m'; split; [reflexivity|split; [exact V|exact M]]].
    + constructor; try assumption; cbn [a_mem a_main a_in a_workers a_out a_coll set_worker set_in ts_table ts_bytes ts_R ts_main ts_in ts_workers ts_out ts_coll]; auto.
      * now rewrite length_upd.
      * now rewrite length_upd.
      * intros w' pc aw E1 E2. destruct (Nat.eq_dec w' w) as [->|Hne].
        -- rewrite nth_upd_eq in E1 by (eapply nth_some_lt, Ew). rewrite nth_upd_eq in E2 by (eapply nth_some_lt, Eaw).
           injection E1 as <-. injection E2 as <-. cbn [w_sim]. now exists v.
        -- rewrite nth_upd_neq in E1 by exact Hne. rewrite nth_upd_neq in E2 by exact Hne. now apply Iw.
      * unfold live in *. cbn [a_workers a_out a_coll a_other]. revert Ind. apply nodup_move. apply Permutation_app_tail. now symmetry.
      * intros a Ia. apply Irg. unfold live in *. cbn [a_workers a_out a_coll a_other] in Ia. rewrite in_app_iff in *. now rewrite P in Ia.
    + unfold rem_of. cbn [a_workers a_coll]. lia.
  - (* AWork *)
    destruct (nth_error (a_workers c) w) as [pc|] eqn:Ew; [|discriminate E].
    destruct (work_step rows np bytes optp (a_mem c) w pc) as [o|] eqn:Eo; [|discriminate E]. injection E as <-.
    destruct (work_sim _ _ _ _ _ I T Ew Eo) as (h' & pc' & -> & I' & Hr). cbn [bind].
    do 2 eexists. split; [reflexivity|]. split; [exists s; split; [exact I'|split; [exact T|reflexivity]]|].
    pose proof (nsum_rem _ _ _ pc' Ew) as Nr. unfold rem_of. cbn [set_w a_workers a_coll]. lia.
  - (* AGive *)
    destruct (nth_error (a_workers c) w) as [pc|] eqn:Ew; [|discriminate E]. destruct pc as [| | | | | | |a|]; try discriminate E.
    destruct (Nat.ltb_spec (length (a_out c)) R) as [L|L]; [|discriminate E]. injection E as <-.
    destruct (worker_of _ _ _ _ I Ew) as (aw & Eaw & Ws). cbn [w_sim] in Ws. subst aw.
    assert (Es : t_step s (TGive w) = Some (Ret (set_worker (set_out s (ts_out s ++ [get (a_mem c) a])) w WLoop))).
    { unfold t_step. rewrite Eaw, Io, IR, map_length. now destruct (Nat.ltb_spec (length (a_out c)) R); [|lia]. }
    pose proof (nsum_rem _ _ _ W89 Ew) as Nr. cbn [w_rem] in Nr.
    pose proof (flat_upd _ _ _ W89 Ew) as P. cbn [w_live app] in P.
    assert (Pl : Permutation (live c) (live (ASt (a_mem c) (a_main c) (a_in c) (upd (a_workers c) w W89) (a_out c ++ [a]) (a_coll c) (a_other c)))).
    { unfold live. cbn [a_workers a_out a_coll a_other]. rewrite <- P. cbn [app]. rewrite <- !app_assoc. cbn [app].
      rewrite (Permutation_middle (flat_map w_live (upd (a_workers c) w W89))). apply Permutation_app_head. apply Permutation_middle. }
    eexists. destruct (inv_real _ _ (ASt (a_mem c) (a_main c) (a_in c) (upd (a_workers c) w W89) (a_out c ++ [a]) (a_coll c) (a_other c)) _ _ I T Es) as (m' & V & M); [|reflexivity| |exists m'; split; [reflexivity|split; [exact V|exact M]]].
    + constructor; try assumption; cbn [a_mem a_main a_in a_workers a_out a_coll set_worker set_out ts_table ts_bytes ts_R ts_main ts_in ts_workers ts_out ts_coll]; auto.
      * now rewrite length_upd.
      * now rewrite length_upd.
      * intros w' pc aw E1 E2. destruct (Nat.eq_dec w' w) as [->|Hne].
        -- rewrite nth_upd_eq in E1 by (eapply nth_some_lt, Ew). rewrite nth_upd_eq in E2 by (eapply nth_some_lt, Eaw).
           injection E1 as <-. injection E2 as <-. reflexivity.
        -- rewrite nth_upd_neq in E1 by exact Hne. rewrite nth_upd_neq in E2 by exact Hne. now apply Iw.
      * rewrite map_app, Io. reflexivity.
      * now rewrite <- Pl.
      * intros b Ib'. apply Irg. now rewrite Pl.
    + unfold rem_of. cbn [a_workers a_coll]. lia.
  - (* ARecv *)
    destruct (a_coll c) as [k| | | | | | | |] eqn:Ek; try discriminate E. destruct (a_out c) as [|a q] eqn:Eq; [discriminate E|]. injection E as <-.
    cbn [k_sim map] in Ik, Io.
    assert (Es : t_step s TColl = Some (Ret (set_coll (set_out s (map (get (a_mem c)) q)) (after (emod (get (a_mem c) resp * get (a_mem c) a) n) k)))).
    { unfold t_step. rewrite Ik, Io, It. fold n. unfold go_mod. destruct (Z.eqb_spec n 0); [lia|]. cbn [bind]. unfold after. now destruct (_ =? _)%Z. }
    assert (Pl : Permutation (live c) (live (ASt (a_mem c) (a_main c) (a_in c) (a_workers c) q (K54a a k) (a_other c)))).
    { unfold live. rewrite Eq, Ek. cbn [a_workers a_out a_coll a_other k_live]. apply Permutation_app_head. cbn [app]. apply Permutation_middle. }
    eexists. destruct (inv_real _ _ (ASt (a_mem c) (a_main c) (a_in c) (a_workers c) q (K54a a k) (a_other c)) _ _ I T Es) as (m' & V & M); [|reflexivity| |exists m'; split; [reflexivity|split; [exact V|exact M]]].
    + constructor; try assumption; cbn [a_mem a_main a_in a_workers a_out a_coll set_coll set_out ts_table ts_bytes ts_R ts_main ts_in ts_workers ts_out ts_coll]; auto.
      * now rewrite <- Pl.
      * intros b Ib'. apply Irg. now rewrite Pl.
      * intros b Eb. destruct (Ires b Eb) as [_ X]. discriminate X.
    + unfold rem_of. rewrite Ek. cbn [a_workers a_coll k_rem]. lia.
  - (* AColl *)
    destruct (coll_step np resp (a_mem c) (a_coll c)) as [o|] eqn:Eo; [|discriminate E]. injection E as <-.
    destruct (coll_sim _ _ _ I Eo) as (h' & pc' & -> & I' & Hr). cbn [bind].
    do 2 eexists. split; [reflexivity|]. split; [exists s; split; [exact I'|split; [exact T|reflexivity]]|].
    unfold rem_of. cbn [set_k a_workers a_coll]. lia.
  - (* AResult *)
    destruct (a_main c) as [[|i]|a] eqn:Em; try discriminate E. destruct (a_coll c) eqn:Ek; try discriminate E. injection E as <-.
    cbn [k_sim m_sim] in Ik, Im.
    assert (Es : t_step s TResult = Some (Ret (set_coll (set_main s (MReturned (get (a_mem c) resp))) CExited))).
    { unfold t_step. now rewrite Im, Ik. }
    eexists. destruct (inv_real _ _ (ASt (a_mem c) (M76 resp) (a_in c) (a_workers c) (a_out c) K59 (a_other c)) _ _ I T Es) as (m' & V & M); [|reflexivity| |exists m'; split; [reflexivity|split; [exact V|exact M]]].
    + unfold live in *. rewrite Ek in *.
      constructor; try assumption; cbn [a_mem a_main a_in a_workers a_out a_coll set_coll set_main ts_table ts_bytes ts_R ts_main ts_in ts_workers ts_out ts_coll]; auto.
      intros a Ea. now injection Ea as <-.
    + unfold rem_of. rewrite Ek. cbn [a_workers a_coll k_rem]. lia.
  - (* ASpin *)
    destruct (nth_error (a_workers c) w) as [pc|] eqn:Ew; [|discriminate E]. destruct pc; try discriminate E.
    destruct (a_in c); [|discriminate E]. destruct (a_main c); [|discriminate E]. injection E as <-.
    do 2 eexists. split; [reflexivity|]. split; [exists s; split; [exact I|split; [exact T|reflexivity]]|]. lia.
  - (* AExit *)
    destruct (nth_error (a_workers c) w) as [pc|] eqn:Ew; [|discriminate E]. destruct pc; try discriminate E.
    destruct (a_main c) as [|a] eqn:Em; [discriminate E|]. injection E as <-. cbn [m_sim] in Im.
    destruct (worker_of _ _ _ _ I Ew) as (aw & Eaw & Ws). cbn [w_sim] in Ws. subst aw.
    assert (Es : t_step s (TExit w) = Some (Ret (set_worker s w WExited))) by (unfold t_step; now rewrite Eaw, Im).
    pose proof (nsum_rem _ _ _ W91 Ew) as Nr. cbn [w_rem] in Nr.
    pose proof (flat_upd _ _ _ W91 Ew) as P. cbn [w_live app] in P.
    eexists. destruct (inv_real _ _ (set_w c (a_mem c) w W91) _ _ I T Es) as (m' & V & M); [|reflexivity| |exists m'; split; [reflexivity|split; [exact V|exact M]]].
    + constructor; try assumption; cbn [set_w a_mem a_main a_in a_workers a_out a_coll set_worker ts_table ts_bytes ts_R ts_main ts_in ts_workers ts_out ts_coll]; auto.
      * now rewrite Em.
      * now rewrite length_upd.
      * now rewrite length_upd.
      * intros w' pc aw E1 E2. destruct (Nat.eq_dec w' w) as [->|Hne].
        -- rewrite nth_upd_eq in E1 by (eapply nth_some_lt, Ew). rewrite nth_upd_eq in E2 by (eapply nth_some_lt, Eaw).
           injection E1 as <-. injection E2 as <-. reflexivity.
        -- rewrite nth_upd_neq in E1 by exact Hne. rewrite nth_upd_neq in E2 by exact Hne. now apply Iw.
      * unfold live in *. cbn [set_w a_workers a_out a_coll a_other]. revert Ind. apply nodup_move. apply Permutation_app_tail. now symmetry.
      * intros b Ib'. apply Irg. unfold live in *. cbn [set_w a_workers a_out a_coll a_other] in Ib'. rewrite in_app_iff in *. now rewrite P in Ib'.
      * intros b Eb. apply Ires. congruence.
    + unfold rem_of. cbn [set_w a_workers a_coll]. lia.
  - (* AOther *)
    injection E as <-. do 2 eexists. split; [reflexivity|]. split; [exists s; split; [|split; [exact T|reflexivity]]|unfold rem_of; cbn [a_workers a_coll]; lia].
    assert (Fr : forall a, a < length (a_mem c) -> get (a_mem c ++ [v]) a = get (a_mem c) a) by (intros a; apply get_app).
    assert (Pl : Permutation (length (a_mem c) :: live c) (live (ASt (a_mem c ++ [v]) (a_main c) (a_in c) (a_workers c) (a_out c) (a_coll c) (length (a_mem c) :: a_other c)))).
    { unfold live. cbn [a_workers a_out a_coll a_other]. rewrite !app_assoc. apply Permutation_middle. }
    constructor; try assumption; cbn [a_mem a_main a_in a_workers a_out a_coll].
    + rewrite Im. destruct (a_main c) as [i|a] eqn:Em; [reflexivity|]. cbn [m_sim]. destruct (Ires a eq_refl) as [-> _].
      rewrite Fr; [reflexivity|]. unfold resp, res_at, first in *. lia.
    + intros w pc aw E1 E2. pose proof (nth_some_lt _ _ _ _ E1) as L1. rewrite Ila in L1.
      apply (w_sim_frame (a_mem c)); [apply Fr; unfold optp, opt_at, first in *; lia| |now apply Iw].
      intros a Ia. apply Fr, Irg, (live_w _ _ _ _ E1 Ia).
    + rewrite Io. apply map_ext_in. intros a Ia. symmetry. apply Fr, Irg. unfold live. rewrite !in_app_iff. tauto.
    + rewrite Ik. symmetry. apply k_sim_frame; [apply Fr; unfold resp, res_at, first in *; lia|].
      intros a Ia. apply Fr, Irg. unfold live. rewrite !in_app_iff. tauto.
    + apply (same_h0 _ _ _ (same_app (a_mem c) [v]) Ih Il). discriminate.
    + rewrite app_length. lia.
    + apply (nodup_move _ _ Pl). constructor; [|exact Ind]. intros Ia. apply Irg in Ia. lia.
    + intros a Ia. rewrite <- Pl in Ia. rewrite app_length. cbn [length]. destruct Ia as [<-|Ia]; [lia|]. apply Irg in Ia. lia.
  - (* AOtherSet *)
    destruct (existsb (Nat.eqb a) (a_other c ++ theirs)) eqn:Ea; [|discriminate E]. injection E as <-.
    apply existsb_exists in Ea. destruct Ea as (a' & Ia & Ea). apply Nat.eqb_eq in Ea. subst a'.
    assert (Rg : (first <= a \/ In a theirs) /\ a < length (a_mem c) /\ (a < length h0 \/ first <= a) /\
      forall b, In b (flat_map w_live (a_workers c) ++ a_out c ++ k_live (a_coll c)) -> b <> a).
    { apply in_app_or in Ia. destruct Ia as [Ia|Ia].
      - assert (La : In a (live c)) by (unfold live; rewrite !in_app_iff; tauto). destruct (Irg a La) as [R1 R2].
        split; [now left|]. split; [exact R2|]. split; [now right|].
        intros b Ib' ->. unfold live in Ind. rewrite !app_assoc in Ind. rewrite !app_assoc in Ib'. exact (nodup_apart _ _ _ Ind Ib' Ia).
      - pose proof (Bt a Ia) as La. split; [now right|]. split; [unfold first in Il; lia|]. split; [now left|].
        intros b Ib' ->. assert (La' : In a (live c)) by (unfold live; rewrite !in_app_iff in *; tauto). apply Irg in La'. unfold first in La'. lia. }
    destruct Rg as (R1 & R2 & R3 & Nr).
    assert (Fr : forall b, b < length (a_mem c) -> b <> a -> get (upd (a_mem c) a v) b = get (a_mem c) b).
    { intros b _ Hb. rewrite nth_upd by exact R2. now destruct (Nat.eqb_spec b a). }
    do 2 eexists. split; [reflexivity|]. split; [exists s; split; [|split; [exact T|reflexivity]]|unfold rem_of; cbn [a_workers a_coll]; lia].
    constructor; try assumption; cbn [a_mem a_main a_in a_workers a_out a_coll].
    + rewrite Im. destruct (a_main c) as [i|b] eqn:Em; [reflexivity|]. cbn [m_sim]. destruct (Ires b eq_refl) as [-> _].
      rewrite Fr; [reflexivity|..]; unfold resp, res_at, first in *; lia.
    + intros w pc aw E1 E2. pose proof (nth_some_lt _ _ _ _ E1) as L1. rewrite Ila in L1.
      apply (w_sim_frame (a_mem c)); [apply Fr; unfold optp, opt_at, first in *; lia| |now apply Iw].
      intros b Ib'. apply Fr; [apply Irg, (live_w _ _ _ _ E1 Ib')|]. apply Nr. rewrite !in_app_iff. left. apply in_flat_map.
      exists pc. split; [eapply nth_error_In, E1|exact Ib'].
    + rewrite Io. apply map_ext_in. intros b Ib'. symmetry. apply Fr; [apply Irg; unfold live; rewrite !in_app_iff; tauto|].
      apply Nr. rewrite !in_app_iff. tauto.
    + rewrite Ik. symmetry. apply k_sim_frame; [apply Fr; unfold resp, res_at, first in *; lia|].
      intros b Ib'. apply Fr; [apply Irg; unfold live; rewrite !in_app_iff; tauto|]. apply Nr. rewrite !in_app_iff. tauto.
    + apply (same_h0 _ _ _ (same_upd (a_mem c) a v R2) Ih Il). intros b Eb. injection Eb as <-. destruct R1 as [R1|R1]; [left; unfold first in R1; lia|now right].
    + now rewrite length_upd.
    + intros b Ib'. rewrite length_upd. now apply Irg.
Qed.

Lemma sim_progress : forall c m, 1 <= R -> inv c m ->
  (exists v, a_ret c = Some v /\ fst v = resp /\ snd v = (g ^ bval bytes mod n)%Z) \/
  (a_ret c = None /\ exists ch st, a_idle ch = false /\ astep c ch = Some st).
Proof.
  intros c m HR (s & I & T & _). pose proof I as [It Ib IR Im Ii Ilw Ila Iw Io Ik Ih Il Ind Irg Ires].
  destruct (t_inv_progress g n t bytes R s HR T) as [(v & Ev & ->)|(Ev & ch & st & Hi & Es)]; unfold t_ret in Ev; unfold a_ret; rewrite Im in Ev.
  - left. destruct (a_main c) as [i|a] eqn:Em; cbn [m_sim] in Ev; [discriminate Ev|]. exists (a, get (a_mem c) a).
    split; [reflexivity|]. split; [apply (Ires a eq_refl)|]. now injection Ev.
  - right. destruct (a_main c) as [i|a] eqn:Em; cbn [m_sim] in Ev; [|discriminate Ev]. split; [reflexivity|].
    assert (W : forall w pc, nth_error (a_workers c) w = Some pc -> w_rem pc <> 0 -> exists ch st, a_idle ch = false /\ astep c ch = Some st).
    { intros w pc Ew Hr. exists (AWork w). unfold astep, a_step. rewrite Ew.
      destruct pc; cbn [w_rem] in Hr; try lia; cbn [work_step]; eexists; split; reflexivity. }
    assert (K : k_rem (a_coll c) <> 0 -> exists ch st, a_idle ch = false /\ astep c ch = Some st).
    { intros Hr. exists AColl. unfold astep, a_step. destruct (a_coll c); cbn [k_rem] in Hr; try lia; cbn [coll_step]; eexists; split; reflexivity. }
    assert (X : forall w aw, nth_error (ts_workers s) w = Some aw -> exists pc, nth_error (a_workers c) w = Some pc /\ w_sim (a_mem c) w pc aw).
    { intros w aw Ea. destruct (nth_error (a_workers c) w) as [pc|] eqn:Ew; [exists pc; split; [reflexivity|now apply Iw]|].
      exfalso. apply nth_error_None in Ew. apply nth_some_lt in Ea. lia. }
    destruct ch as [|w|w| | |w|w]; unfold t_step in Es; try discriminate Hi.
    + rewrite Im in Es. cbn [m_sim] in Es. destruct i as [|i]; [discriminate Es|].
      destruct (Nat.ltb_spec (length (ts_in s)) (4 * ts_R s)) as [L|L]; [|discriminate Es]. rewrite Ii, IR in L.
      exists AFeed. eexists. split; [reflexivity|]. unfold astep, a_step. rewrite Em.
      destruct (Nat.ltb_spec (length (a_in c)) (4 * R)); [reflexivity|lia].
    + destruct (nth_error (ts_workers s) w) as [aw|] eqn:Ea; [|discriminate Es]. destruct aw; try discriminate Es.
      rewrite Ii in Es. destruct (a_in c) as [|i0 q] eqn:Eq; [discriminate Es|].
      destruct (X _ _ Ea) as (pc & Ew & Ws). destruct pc; cbn [w_sim] in Ws; try discriminate Ws; try (destruct Ws as (? & _ & Ws); discriminate Ws).
      exists (ATake w). eexists. split; [reflexivity|]. unfold astep, a_step. rewrite Ew, Eq. reflexivity.
    + destruct (nth_error (ts_workers s) w) as [aw|] eqn:Ea; [|discriminate Es]. destruct aw as [|v|]; try discriminate Es.
      destruct (X _ _ Ea) as (pc & Ew & Ws). destruct pc as [|j|j|a j|a b|a b e|a u|a|]; cbn [w_sim] in Ws; try discriminate Ws; try (apply (W _ _ Ew); discriminate).
      rewrite Io, IR, map_length in Es. destruct (Nat.ltb_spec (length (a_out c)) R) as [L|L]; [|discriminate Es].
      exists (AGive w). eexists. split; [reflexivity|]. unfold astep, a_step. rewrite Ew. destruct (Nat.ltb_spec (length (a_out c)) R); [reflexivity|lia].
    + rewrite Ik in Es. destruct (a_coll c) as [k| | | | | | | |] eqn:Ek; try (apply K; discriminate); try discriminate Es.
      cbn [k_sim] in Es. rewrite Io in Es. destruct (a_out c) as [|a q] eqn:Eq; [discriminate Es|].
      exists ARecv. eexists. split; [reflexivity|]. unfold astep, a_step. rewrite Ek, Eq. reflexivity.
    + rewrite Im, Ik in Es. cbn [m_sim] in Es. destruct i as [|i]; [|discriminate Es].
      destruct (a_coll c) as [k| | | | | | | |] eqn:Ek; try (apply K; discriminate); try discriminate Es.
      exists AResult. eexists. split; [reflexivity|]. unfold astep, a_step. rewrite Em, Ek. reflexivity.
    + rewrite Im in Es. cbn [m_sim] in Es. destruct (nth_error (ts_workers s) w) as [[]|]; discriminate Es.
Qed.

(** ** the numbers of each goroutine *)
Definition owns (c : astate) (k : nat) (a : addr) : Prop :=
  match k with
  | O => a = resp \/ In a (k_live (a_coll c))
  | S w => exists pc, nth_error (a_workers c) w = Some pc /\ (a = optp w \/ In a (w_live pc))
  end.
Definition at_addr (x : access) : addr := match x with Rd a | Wr a => a end.

Lemma next_owned : forall c m k x, inv c m -> next_of rows np resp optp c k = Some x ->
  (x = Rd (at_addr x) /\ still (at_addr x)) \/ owns c k (at_addr x).
Proof.
  intros c m [|w] x (s & I & T & _) E; cbn [next_of owns] in *.
  - destruct (a_coll c); cbn [k_next k_live] in *; try discriminate E; injection E as <-; cbn [at_addr]; auto; right; right; now left.
  - destruct (nth_error (a_workers c) w) as [pc|] eqn:Ew; [|discriminate E].
    destruct pc as [|j|j|a j|a b|a b e|a u|a|]; cbn [w_next] in E; try discriminate E.
    + injection E as <-. right. eexists. split; [reflexivity|]. now left.
    + destruct (nth_error rows (in_idx j)) as [p|] eqn:Ep; [|discriminate E]. injection E as <-. left. split; [reflexivity|].
      cbn [at_addr]. eapply Forall_nth in Brows; [exact Brows|exact Ep].
    + injection E as <-. right. eexists. split; [reflexivity|]. now left.
    + injection E as <-. left. split; [reflexivity|exact Bn].
    + injection E as <-. right. eexists. split; [reflexivity|]. right. now left.
Qed.
Lemma owns_one : forall c m j k a, inv c m -> owns c j a -> owns c k a -> j = k.
Proof.
  intros c m j k a (s & I & T & _). pose proof (si_la _ _ I) as Ila. pose proof (si_rng _ _ I) as Rg. pose proof (si_nd _ _ I) as Nd.
  assert (Kl : In a (k_live (a_coll c)) -> In a (live c)) by (intros Ia; unfold live; rewrite !in_app_iff; tauto).
  assert (Sym : forall w pc, nth_error (a_workers c) w = Some pc -> (a = optp w \/ In a (w_live pc)) -> (a = resp \/ In a (k_live (a_coll c))) -> False).
  { intros w pc Ew Ha Hk. pose proof (nth_some_lt _ _ _ _ Ew) as Lw. rewrite Ila in Lw.
    destruct Ha as [->|Ha], Hk as [Hk|Hk].
    - unfold optp, opt_at, resp, res_at in Hk. lia.
    - apply Kl, Rg in Hk. unfold optp, opt_at, first in Hk. lia.
    - subst a. apply (live_w _ _ _ _ Ew), Rg in Ha. unfold resp, res_at, first in Ha. lia.
    - unfold live in Nd. apply (nodup_apart _ _ a Nd); [apply in_flat_map; exists pc; split; [eapply nth_error_In, Ew|exact Ha]|].
      rewrite !in_app_iff. tauto. }
  destruct j as [|j], k as [|k]; cbn [owns]; auto.
  - intros Hk (pc & Ew & Ha). destruct (Sym _ _ Ew Ha Hk).
  - intros (pc & Ew & Ha) Hk. destruct (Sym _ _ Ew Ha Hk).
  - intros (pc & Ej & Hj) (pc' & Ek & Hk). pose proof (nth_some_lt _ _ _ _ Ej) as Lj. pose proof (nth_some_lt _ _ _ _ Ek) as Lk.
    rewrite Ila in Lj, Lk. destruct (Nat.eq_dec j k) as [->|Hne]; [reflexivity|]. exfalso. destruct Hj as [->|Hj], Hk as [Hk|Hk].
    + unfold optp, opt_at in Hk. lia.
    + apply (live_w _ _ _ _ Ek), Rg in Hk. unfold optp, opt_at, first in Hk. lia.
    + subst a. apply (live_w _ _ _ _ Ej), Rg in Hj. unfold optp, opt_at, first in Hj. lia.
    + destruct (w_rng _ _ _ _ I Ej) as [Nd' _]. apply (nodup_apart _ _ a Nd' Hj). apply (in_rest_w c j k pc' a); auto.
Qed.
Lemma owns_ours : forall c m k a, inv c m -> owns c k a -> length h0 <= a /\ ~ In a (a_other c).
Proof.
  intros c m k a (s & I & T & _) Ho. pose proof (si_la _ _ I) as Ila. pose proof (si_rng _ _ I) as Rg. pose proof (si_nd _ _ I) as Nd.
  assert (Ol : In a (a_other c) -> In a (live c)) by (intros Ia; unfold live; rewrite !in_app_iff; tauto).
  destruct k as [|w]; cbn [owns] in Ho.
  - destruct Ho as [->|Ho].
    + split; [unfold resp, res_at; lia|]. intros Ia. apply Ol, Rg in Ia. unfold resp, res_at, first in Ia. lia.
    + split.
      * assert (In a (live c)) as Ia by (unfold live; rewrite !in_app_iff; tauto). apply Rg in Ia. unfold first in Ia. lia.
      * intros Ia. unfold live in Nd. rewrite !app_assoc in Nd. apply (nodup_apart _ _ a Nd); [rewrite !in_app_iff; tauto|exact Ia].
  - destruct Ho as (pc & Ew & [->|Ho]).
    + pose proof (nth_some_lt _ _ _ _ Ew) as Lw. rewrite Ila in Lw. split; [unfold optp, opt_at; lia|].
      intros Ia. apply Ol, Rg in Ia. unfold optp, opt_at, first in Ia. lia.
    + split; [apply (live_w _ _ _ _ Ew), Rg in Ho; unfold first in Ho; lia|].
      intros Ia. destruct (w_rng _ _ _ _ I Ew) as [Nd' _]. apply (nodup_apart _ _ a Nd' Ho). unfold rest. rewrite !in_app_iff. tauto.
Qed.
Lemma inv_h0 : forall c m, inv c m -> length h0 <= length (a_mem c) /\ forall a, still a -> get (a_mem c) a = get h0 a.
Proof. intros c m (s & I & _). split; [pose proof (si_len _ _ I) as L; unfold first in L; lia|apply (si_h0 _ _ I)]. Qed.

Lemma other_new : forall c m a, inv c m -> In a (a_other c) -> length h0 <= a.
Proof.
  intros c m a (s & I & _) Ia. assert (La : In a (live c)) by (unfold live; rewrite !in_app_iff; auto).
  apply (si_rng _ _ I) in La. unfold first in La. lia.
Qed.

Lemma start_inv_at : forall x, bytes = list_ascii_of_string (big_bytes x) -> (0 < x)%Z ->
  inv (a_start h0 (t_chunk t) bytes R) (10 * t_measure (t_init t x R) + rem_of (a_start h0 (t_chunk t) bytes R)).
Proof.
  intros x Eb Hx. exists (t_init t x R). split; [|split; [|reflexivity]].
  2:{ rewrite Eb. now apply t_init_inv. }
  assert (L : length (h0 ++ 1%Z :: repeat 0%Z R) = first) by (rewrite app_length; cbn [length]; rewrite repeat_length; unfold first; lia).
  constructor; unfold a_start, t_init; rewrite <- ?Eb; cbn [a_mem a_main a_in a_workers a_out a_coll a_other ts_table ts_bytes ts_R ts_main ts_in ts_workers ts_out ts_coll]; auto.
  - apply repeat_length.
  - apply repeat_length.
  - intros w pc aw E1 E2. apply nth_error_In, repeat_spec in E1. apply nth_error_In, repeat_spec in E2. subst. reflexivity.
  - cbn [k_sim]. unfold resp, res_at, get. rewrite app_nth2, Nat.sub_diag by lia. reflexivity.
  - intros a [La _]. now apply get_app.
  - rewrite L. lia.
  - unfold live. cbn [a_workers a_out a_coll a_other k_live app]. rewrite app_nil_r.
    replace (flat_map w_live (repeat W89 R)) with (@nil addr); [constructor|]. clear. induction R as [|r IH]; [reflexivity|exact IH].
  - intros a Ia. exfalso. revert Ia. unfold live. cbn [a_workers a_out a_coll a_other k_live app]. rewrite app_nil_r, in_flat_map.
    intros (pc & Ipc & Ia). apply repeat_spec in Ipc. subst pc. destruct Ia.
  - discriminate.
Qed.
Lemma start_inv : forall x, bytes = list_ascii_of_string (big_bytes x) -> (0 < x)%Z ->
  exists m, inv (a_start h0 (t_chunk t) bytes R) m.
Proof. intros x Eb Hx. eexists. exact (start_inv_at x Eb Hx). Qed.
End Sim.
