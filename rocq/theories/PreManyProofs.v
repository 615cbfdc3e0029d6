(** What each call of PreManyModel owns, whatever the others do. *)
From Coq Require Import ZArith Bool List Lia.
From Verif Require Import GoBig GoBigFacts ListUpd Sched TableModel TableProofs TabRaceModel TabRaceProofs PreRaceModel PreRaceProofs PreManyModel.
Import ListNotations.
Local Open Scope nat_scope.

(** ** one step of one call *)
Lemma inside_step : forall np prodp cap s h o c, p_idle c = false ->
  p_step np prodp cap (inside s h o) c =
  match p_step np prodp cap (inside s h []) c with
  | Some r => Some (do s' <- r; Ret (inside s' (p_mem s') o))
  | None => None
  end.
Proof.
  intros np prodp cap s h o c Hc. destruct c as [k|k| | |v|a v]; try discriminate Hc; unfold p_step, inside;
    cbn [p_mem p_gor p_chan p_closed p_pc p_i p_other].
  - destruct (nth_error (p_gor s) k) as [pc|]; [|reflexivity]. destruct (gor_step np h pc) as [[h' pc']|]; reflexivity.
  - destruct (nth_error (p_gor s) k) as [pc|]; [|reflexivity]. destruct pc; try reflexivity. destruct (p_closed s); [reflexivity|].
    destruct (length (p_chan s) <? cap); [reflexivity|]. destruct (cap =? 0); [|reflexivity]. destruct (p_pc s); reflexivity.
  - destruct (p_pc s); try reflexivity. destruct (p_chan s); reflexivity.
  - unfold main_step, set_main_p. cbn [p_mem p_gor p_chan p_closed p_pc p_i p_other].
    destruct (p_pc s); try reflexivity; cbn [bind p_mem].
    + destruct (go_mod p (get h np)); reflexivity.
    + destruct (S (p_i s) =? cap + 1); reflexivity.
Qed.
(** what a step does to the memory, and that [p_next_of] tells it *)
Lemma effect : forall np prodp cap s c s', p_idle c = false -> p_step np prodp cap s c = Some (Ret s') ->
  p_mem s' = p_mem s \/ p_mem s' = p_mem s ++ [0%Z] \/
  exists k a v, p_next_of np prodp s k = Some (Wr a) /\ p_mem s' = upd (p_mem s) a v.
Proof.
  intros np prodp cap s c s' Hc E. destruct c as [k|k| | |v|a v]; try discriminate Hc; unfold p_step in E.
  - destruct (nth_error (p_gor s) k) as [pc|] eqn:Ek; [|discriminate E].
    destruct pc; cbn [gor_step] in E; try discriminate E; injection E as <-; cbn [p_mem]; auto.
    right; right. exists (S k), ret, v. cbn [p_next_of]. rewrite Ek. split; reflexivity.
  - destruct (nth_error (p_gor s) k) as [pc|]; [|discriminate E]. destruct pc; try discriminate E. destruct (p_closed s); [discriminate E|].
    destruct (length (p_chan s) <? cap); [injection E as <-; auto|]. destruct (cap =? 0); [|discriminate E].
    destruct (p_pc s); try discriminate E. injection E as <-. auto.
  - destruct (p_pc s); try discriminate E. destruct (p_chan s); [discriminate E|]. injection E as <-. auto.
  - unfold main_step in E. set (fin := S (p_i s) =? cap + 1) in E. clearbody fin. destruct (p_pc s) eqn:Ep; try discriminate E; try (injection E as <-; cbn [set_main_p p_mem]; auto).
    + right; right. exists 0, prodp, p. cbn [p_next_of]. rewrite Ep. split; reflexivity.
    + unfold go_mod in E. destruct (get (p_mem s) np =? 0)%Z; [discriminate E|]. cbn [bind] in E. injection E as <-. auto.
    + right; right. exists 0, prodp, p. cbn [p_next_of]. rewrite Ep. split; reflexivity.
    + destruct fin; auto.
Qed.
Lemma inside_next : forall np prodp s h o o' k, p_next_of np prodp (inside s h o) k = p_next_of np prodp (inside s h o') k.
Proof. reflexivity. Qed.
Lemma inside_start : forall h o rows ns x,
  p_start h o rows ns x = do (w, s) <- p_start h [] rows ns x; Ret (w, inside s (p_mem s) o).
Proof.
  intros h o rows ns x. unfold p_start. destruct (negb _); [reflexivity|]. destruct (length rows <? 1); [reflexivity|].
  destruct (x <? 1)%Z; [reflexivity|]. cbv zeta. destruct (split_x _ _ _ _); [|reflexivity..]. cbn [bind].
  destruct (start_gor _ _ _ _); reflexivity.
Qed.

(** ** one call while others go on *)
Section One.
Variable h1 : memory.
Variable np : addr.
Variable N : Z.
Variable cap : nat.
Variable V : Z.
Variable O0 : list addr.
Hypothesis HN : get h1 np = N.
Hypothesis BN : np < length h1.
Hypothesis FN : ~ In np O0.
Hypothesis N1 : (1 < N)%Z.

Lemma others_make : forall l c m, pinv h1 N cap V O0 c m -> exists o' m', m' <= m /\
  pinv h1 N cap V O0 (inside c (p_mem c ++ l) o') m' /\
  forall a, In a o' <-> In a (p_other c) \/ length (p_mem c) <= a < length (p_mem c) + length l.
Proof.
  induction l as [|v l IH]; intros c m I.
  - exists (p_other c), m. split; [lia|]. split; [rewrite app_nil_r; destruct c; exact I|]. intros a. cbn [length]. split; [auto|]. intros [H|H]; [exact H|lia].
  - destruct (psim_step h1 np N cap V O0 HN BN FN N1 c m (POther v) _ I eq_refl) as (c1 & m1 & E & I1 & L1). injection E as <-.
    cbn [p_idle] in L1. destruct (IH _ _ I1) as (o' & m' & L & I' & Hin). exists o', m'. split; [lia|]. cbn [p_mem p_other] in *.
    split; [rewrite <- app_assoc in I'; exact I'|]. intros a. rewrite Hin. rewrite app_length. cbn [length In].
    split; [intros [[<-|H]|H]; [right; lia|auto|right; lia]|]. intros [H|H]; [auto|]. destruct (Nat.eq_dec a (length (p_mem c))); [left; left; auto|right; lia].
Qed.
Lemma others_set : forall c m a v, pinv h1 N cap V O0 c m -> In a (p_other c) -> exists m', m' <= m /\
  pinv h1 N cap V O0 (inside c (upd (p_mem c) a v) (p_other c)) m'.
Proof.
  intros c m a v I Ia. destruct (psim_step h1 np N cap V O0 HN BN FN N1 c m (POtherSet a v) (Ret (inside c (upd (p_mem c) a v) (p_other c))) I) as (c1 & m1 & E & I1 & L1).
  { unfold p_step. rewrite (proj2 (existsb_exists _ _)); [reflexivity|]. exists a. split; [exact Ia|apply Nat.eqb_refl]. }
  injection E as <-. exists m1. split; [exact L1|exact I1].
Qed.
Lemma owned_in : forall c m k a, pinv h1 N cap V O0 c m -> powns h1 c k a -> a < length (p_mem c).
Proof.
  intros c m k a (s & I & _) Ho. pose proof (sp_rng _ _ _ _ _ _ I) as Rg. pose proof (sp_len _ _ _ _ _ _ I) as L.
  destruct k as [|w]; cbn [powns] in Ho.
  - destruct Ho as [->|Ho]; [lia|]. apply Rg. unfold plive. rewrite !in_app_iff. tauto.
  - destruct Ho as (pc & Ew & Ho). apply Rg. apply (live_g _ _ _ _ Ew Ho).
Qed.
End One.

(** ** all calls *)
(** a call with these arguments has the result [v] *)
Definition sound (h0 : memory) (j : args) (v : Z) : Prop :=
  exists base N bitLen tableSize t, (1 < N)%Z /\ (0 < j_x j)%Z /\ GenPreTable base N bitLen tableSize = Ret t /\
    map (fun p => nth_error h0 p) (j_rows j) = map Some (pt_base t) /\ nth_error h0 (j_np j) = Some N /\
    j_ns j = pt_n t /\ v = (base ^ j_x j mod N)%Z.

Lemma forall2_len : forall A B (R : A -> B -> Prop) l l', Forall2 R l l' -> length l = length l'.
Proof. intros A B R l l' H. induction H; cbn [length]; congruence. Qed.

Section All.
Variable h0 : memory.
Variable jobs : list args.
Variable vals : list Z.
Hypothesis HF : Forall2 (sound h0) jobs vals.

Definition weight (j : args) : nat := S (25 * (find_iCounter (j_ns j) (bit_len (j_x j)) + 1)).
(** [own a]: the call that made the number a *)
Definition cinv (own : addr -> nat) (h : memory) (i : nat) (j : args) (v : Z) (d : cstate) (m : nat) : Prop :=
  match d with
  | Waiting => m = weight j /\ forall a, length h0 <= a < length h -> own a <> i
  | Running cap prodp s =>
      exists h1 N V O0 o, prodp = length h1 /\ length h0 <= length h1 /\ get h1 (j_np j) = N /\ j_np j < length h1 /\
        ~ In (j_np j) O0 /\ (1 < N)%Z /\ v = (V mod N)%Z /\ pinv h1 N cap V O0 (inside s h o) m /\
        forall a, In a o <-> length h0 <= a < length h /\ own a <> i
  end.
Definition allinv (st : mstate) (M : nat) : Prop :=
  exists own ms, M = nsum (fun m => m) ms /\ length ms = length jobs /\ length (m_calls st) = length jobs /\
    length h0 <= length (m_mem st) /\ (forall a, a < length h0 -> get (m_mem st) a = get h0 a) /\
    forall i j v d m, nth_error jobs i = Some j -> nth_error vals i = Some v -> nth_error (m_calls st) i = Some d ->
      nth_error ms i = Some m -> cinv own (m_mem st) i j v d m.

Lemma fits_at : forall i j v, nth_error jobs i = Some j -> nth_error vals i = Some v -> sound h0 j v.
Proof.
  revert vals HF. induction jobs as [|x l IH]; intros vs F i j v E1 E2; [destruct i; discriminate E1|]. inversion F; subst.
  destruct i as [|i]; cbn [nth_error] in *; [injection E1 as <-; injection E2 as <-; assumption|]. eapply IH; eassumption.
Qed.
Lemma val_at : forall i j, nth_error jobs i = Some j -> exists v, nth_error vals i = Some v.
Proof.
  intros i j E. destruct (nth_error vals i) as [v|] eqn:Ev; [now exists v|]. exfalso. apply nth_error_None in Ev.
  apply nth_some_lt in E. pose proof (forall2_len _ _ _ _ _ HF). lia.
Qed.
Lemma some_at : forall A (l : list A) i n, length l = n -> i < n -> exists x, nth_error l i = Some x.
Proof. intros A l i n L Li. destruct (nth_error l i) as [x|] eqn:E; [now exists x|]. apply nth_error_None in E. lia. Qed.

(** what the other calls' part of the invariant keeps when call i has done something to the memory *)
Definition took (own : addr -> nat) (h : memory) (i : nat) : addr -> nat := fun a => if length h <=? a then i else own a.
Lemma took_old : forall own h i a, a < length h -> took own h i a = own a.
Proof. intros own h i a L. unfold took. destruct (Nat.leb_spec (length h) a); [lia|reflexivity]. Qed.
Lemma took_new : forall own h i a, length h <= a -> took own h i a = i.
Proof. intros own h i a L. unfold took. destruct (Nat.leb_spec (length h) a); [reflexivity|lia]. Qed.

Lemma frame_make : forall own h i k j v d m l, k <> i -> length h0 <= length h -> cinv own h k j v d m ->
  exists m', m' <= m /\ cinv (took own h i) (h ++ l) k j v d m'.
Proof.
  intros own h i k j v d m l Hk Lh C. destruct d as [|cap prodp s]; cbn [cinv] in *.
  - exists m. split; [lia|]. destruct C as [E C]. split; [exact E|]. intros a La. rewrite app_length in La.
    destruct (Nat.lt_ge_cases a (length h)) as [L|L]; [rewrite took_old by exact L; apply C; lia|rewrite took_new by exact L; auto].
  - destruct C as (h1 & N & V & O0 & o & Ep & L1 & G & B & F & N1 & Ev & I & Ho).
    destruct (others_make h1 (j_np j) N cap V O0 G B F N1 l _ _ I) as (o' & m' & Lm & I' & Hin). exists m'. split; [exact Lm|].
    exists h1, N, V, O0, o'. do 7 (split; [assumption|]). split; [exact I'|]. intros a. rewrite Hin. cbn [inside p_other p_mem].
    rewrite Ho, app_length. destruct (Nat.lt_ge_cases a (length h)) as [L|L].
    + rewrite took_old by exact L. split; [intros [H|H]; [split; [lia|apply H]|lia]|]. intros [H1 H2]. left. split; [lia|exact H2].
    + rewrite took_new by exact L. split; [intros [H|H]; [lia|split; [lia|auto]]|]. intros [H1 H2]. right. lia.
Qed.
Lemma frame_set : forall own h i k j v d m a w, k <> i -> length h0 <= a < length h -> own a = i -> cinv own h k j v d m ->
  exists m', m' <= m /\ cinv own (upd h a w) k j v d m'.
Proof.
  intros own h i k j v d m a w Hk La Oa C. destruct d as [|cap prodp s]; cbn [cinv] in *.
  - exists m. split; [lia|]. destruct C as [E C]. split; [exact E|]. intros b Lb. rewrite length_upd in Lb. now apply C.
  - destruct C as (h1 & N & V & O0 & o & Ep & L1 & G & B & F & N1 & Ev & I & Ho).
    assert (Ia : In a o) by (apply Ho; split; [exact La|congruence]).
    destruct (others_set h1 (j_np j) N cap V O0 G B F N1 _ _ a w I Ia) as (m' & Lm & I'). exists m'. split; [exact Lm|].
    exists h1, N, V, O0, o. do 7 (split; [assumption|]). split; [exact I'|]. intros b. now rewrite Ho, length_upd.
Qed.

(** putting the parts together: call i has a smaller measure, the others not a larger one *)
Lemma assemble : forall (calls : list cstate) (own' : addr -> nat) (h' : memory) ms i j v d d' m m',
  length ms = length jobs -> length calls = length jobs -> nth_error jobs i = Some j -> nth_error vals i = Some v -> nth_error calls i = Some d ->
  nth_error ms i = Some m -> length h0 <= length h' -> (forall a, a < length h0 -> get h' a = get h0 a) ->
  cinv own' h' i j v d' m' -> m' < m ->
  (forall k j v d m, k <> i -> nth_error jobs k = Some j -> nth_error vals k = Some v -> nth_error calls k = Some d -> nth_error ms k = Some m ->
     exists m', m' <= m /\ cinv own' h' k j v d m') ->
  exists M', allinv (MSt h' (upd calls i d')) M' /\ M' < nsum (fun m => m) ms.
Proof.
  intros calls own' h' ms i j v d d' m m' Lm Lc Ej Ev Ed Em Lh Hh C Lt Rest.
  assert (K : exists ms', length ms' = length ms /\ nsum (fun m => m) ms' <= nsum (fun m => m) ms /\ nth_error ms' i = Some m /\
    forall k j v d m, k <> i -> nth_error jobs k = Some j -> nth_error vals k = Some v -> nth_error calls k = Some d -> nth_error ms' k = Some m ->
      cinv own' h' k j v d m).
  { clear C Lt. assert (Q : forall n, n <= length ms -> exists ms', length ms' = length ms /\ nsum (fun m => m) ms' <= nsum (fun m => m) ms /\ nth_error ms' i = Some m /\
      (forall k, n <= k -> nth_error ms' k = nth_error ms k) /\
      forall k j v d m, k < n -> k <> i -> nth_error jobs k = Some j -> nth_error vals k = Some v -> nth_error calls k = Some d -> nth_error ms' k = Some m ->
        cinv own' h' k j v d m).
    { induction n as [|n IH]; intros Ln.
      - exists ms. split; [reflexivity|]. split; [lia|]. split; [exact Em|]. split; [reflexivity|]. intros. lia.
      - destruct IH as (ms1 & L1 & S1 & E1 & T1 & C1); [lia|]. destruct (Nat.eq_dec n i) as [->|Hn].
        + exists ms1. split; [exact L1|]. split; [exact S1|]. split; [exact E1|]. split; [intros k Lk; apply T1; lia|].
          intros k j1 v1 d1 m1 Lk Hk. apply C1; [lia|exact Hk].
        + destruct (some_at _ jobs n _ eq_refl ltac:(lia)) as (jn & Ejn). destruct (val_at _ _ Ejn) as (vn & Evn).
          destruct (some_at _ calls n _ Lc ltac:(lia)) as (dn & Edn). destruct (some_at _ ms n _ eq_refl ltac:(lia)) as (mn & Emn).
          destruct (Rest n _ _ _ _ Hn Ejn Evn Edn Emn) as (mn' & Lmn & Cn).
          assert (Emn1 : nth_error ms1 n = Some mn) by (rewrite T1 by lia; exact Emn).
          exists (upd ms1 n mn'). split; [now rewrite length_upd|]. split.
          { pose proof (nsum_upd _ (fun m => m) _ _ _ mn' Emn1) as Nu. cbn beta in Nu. lia. }
          split; [now rewrite nth_upd_neq by auto|]. split; [intros k Lk; rewrite nth_upd_neq by lia; apply T1; lia|].
          intros k j1 v1 d1 m1 Lk Hk Ej1 Ev1 Ed1 Em1. destruct (Nat.eq_dec k n) as [->|Hkn].
          * rewrite nth_upd_eq in Em1 by lia. injection Em1 as <-. rewrite Ejn in Ej1. injection Ej1 as <-. rewrite Evn in Ev1. injection Ev1 as <-.
            rewrite Edn in Ed1. injection Ed1 as <-. exact Cn.
          * rewrite nth_upd_neq in Em1 by exact Hkn. apply C1; auto. lia. }
    destruct (Q (length ms) (le_n _)) as (ms' & L1 & S1 & E1 & _ & C1). exists ms'. do 3 (split; [assumption|]).
    intros k j1 v1 d1 m1 Hk Ej1 Ev1 Ed1 Em1. apply C1; auto. apply nth_some_lt in Ej1. lia. }
  destruct K as (ms' & L1 & S1 & E1 & C1). pose proof (nsum_upd _ (fun m => m) _ _ _ m' E1) as Nu. cbn beta in Nu.
  exists (nsum (fun m => m) (upd ms' i m')). split; [|lia].
  exists own', (upd ms' i m'). split; [reflexivity|]. cbn [m_mem m_calls]. rewrite !length_upd. split; [lia|]. split; [exact Lc|]. split; [exact Lh|]. split; [exact Hh|].
  intros k j1 v1 d1 m1 Ej1 Ev1 Ed1 Em1. destruct (Nat.eq_dec k i) as [->|Hk].
  - rewrite nth_upd_eq in Ed1 by (apply nth_some_lt in Ed; exact Ed). injection Ed1 as <-.
    rewrite nth_upd_eq in Em1 by (apply nth_some_lt in E1; exact E1). injection Em1 as <-.
    rewrite Ej in Ej1. injection Ej1 as <-. rewrite Ev in Ev1. injection Ev1 as <-. exact C.
  - rewrite nth_upd_neq in Ed1 by exact Hk. rewrite nth_upd_neq in Em1 by exact Hk. now apply (C1 k).
Qed.

Lemma begin_ok : forall h j v, sound h0 j v -> length h0 <= length h -> (forall a, a < length h0 -> get h a = get h0 a) ->
  exists cap h1 s l N V m, p_start h [] (j_rows j) (j_ns j) (j_x j) = Ret (cap, length h1, s) /\ p_mem s = h ++ l /\
    length h <= length h1 /\ get h1 (j_np j) = N /\ j_np j < length h1 /\ j_np j < length h0 /\ (1 < N)%Z /\ v = (V mod N)%Z /\
    pinv h1 N cap V (seq (length h0) (length h - length h0)) (inside s (p_mem s) (seq (length h0) (length h - length h0))) m /\ m < weight j.
Proof.
  intros h j v (base & N & bl & ts & t & N1 & Hx & E & Hr & Hn & Ens & ->) L Hh. set (O := seq (length h0) (length h - length h0)).
  pose proof (GenPreTable_ok base N bl ts t ltac:(lia) E) as Hok.
  assert (Lr : map (get h) (j_rows j) = pt_base t /\ Forall (fun p => p < length h0) (j_rows j)).
  { revert Hr. generalize (pt_base t). induction (j_rows j) as [|p l IH]; intros [|w vs] Er; try discriminate Er; [split; constructor|].
    cbn [map] in *. injection Er as E1 E2. destruct (IH vs E2) as [H1 H2]. assert (Lp : p < length h0) by (apply nth_error_Some; congruence). split.
    - f_equal; [rewrite Hh by exact Lp; unfold get; now apply nth_error_nth|exact H1].
    - constructor; [exact Lp|exact H2]. }
  destruct Lr as [L1 L2]. assert (Ln : j_np j < length h0) by (apply nth_error_Some; congruence).
  assert (Gn : get h (j_np j) = N) by (rewrite Hh by exact Ln; unfold get; now apply nth_error_nth).
  assert (IO : forall a, In a O <-> length h0 <= a < length h) by (intros a; unfold O; rewrite in_seq; lia).
  destruct (p_start_inv h O (j_rows j) (j_np j) base N t (j_x j)) as (cap & h1 & s0 & m & Es & F & Lh & G & B & I & Lm); auto.
  { apply Forall_forall. intros p Ip. pose proof (proj1 (Forall_forall _ _) L2 p Ip) as Lp. cbn beta in Lp. split; [lia|]. rewrite IO. lia. }
  { lia. } { rewrite IO. lia. } { intros a Ia. apply IO in Ia. lia. } { apply seq_NoDup. }
  rewrite inside_start in Es. rewrite Ens. destruct (p_start h [] (j_rows j) (pt_n t) (j_x j)) as [[[c p] s]| |] eqn:Ep; try discriminate Es.
  cbn [bind] in Es. injection Es as -> -> <-.
  assert (Lx : exists l, p_mem s = h ++ l).
  { unfold p_start in Ep. destruct (negb _); [discriminate Ep|]. destruct (length (j_rows j) <? 1); [discriminate Ep|].
    destruct (j_x j <? 1)%Z; [discriminate Ep|]. cbv zeta in Ep. destruct (split_x _ _ _ _) as [sub| |]; try discriminate Ep. cbn [bind] in Ep.
    destruct (start_gor _ _ _ _) as [gs| |]; try discriminate Ep. cbn [bind] in Ep. injection Ep as _ _ <-. cbn [p_mem]. eexists. rewrite <- app_assoc. reflexivity. }
  destruct Lx as [l El]. exists cap, h1, s, l, N, (base ^ j_x j)%Z, m. split; [reflexivity|]. split; [exact El|]. do 5 (split; [assumption|]). split; [reflexivity|].
  split; [exact I|]. unfold weight. rewrite Ens. lia.
Qed.

Lemma all_step : forall st M c r, allinv st M -> m_step jobs st c = Some r -> exists st' M', r = Ret st' /\ allinv st' M' /\ M' < M.
Proof.
  intros st M c r (own & ms & -> & Lm & Lc & Lh & Hh & C) E. destruct c as [i|i c]; cbn [m_step] in E.
  - (* Begin *)
    destruct (nth_error jobs i) as [j|] eqn:Ej; [|discriminate E]. destruct (nth_error (m_calls st) i) as [d|] eqn:Ed; [|discriminate E].
    destruct d; [|discriminate E]. destruct (val_at _ _ Ej) as (v & Ev). destruct (some_at _ ms i _ Lm ltac:(eapply nth_some_lt, Ej)) as (m & Em).
    pose proof (C _ _ _ _ _ Ej Ev Ed Em) as Ci. cbn [cinv] in Ci. destruct Ci as [Ew Fr].
    destruct (begin_ok _ _ _ (fits_at _ _ _ Ej Ev) Lh Hh) as (cap & h1 & s & l & N & V & m' & Es & El & L1 & G & B & B0 & N1 & Evv & I & Lt).
    rewrite Es in E. cbn [bind] in E. injection E as <-. rewrite El in I.
    destruct (assemble (m_calls st) (took own (m_mem st) i) (m_mem st ++ l) ms i j v Waiting (Running cap (length h1) s) m m') as (M' & A & LM); auto.
    + rewrite app_length. lia.
    + intros a La. rewrite get_app by lia. now apply Hh.
    + cbn [cinv]. exists h1, N, V, (seq (length h0) (length (m_mem st) - length h0)), (seq (length h0) (length (m_mem st) - length h0)).
      split; [reflexivity|]. split; [lia|]. do 2 (split; [assumption|]). split; [rewrite in_seq; lia|]. do 2 (split; [assumption|]). split; [exact I|].
      intros a. rewrite in_seq, app_length. destruct (Nat.lt_ge_cases a (length (m_mem st))) as [L|L].
      * rewrite took_old by exact L. split; [intros H; split; [lia|apply Fr; lia]|lia].
      * rewrite took_new by exact L. split; [lia|intros [_ H]; now destruct H].
    + lia.
    + intros k j1 v1 d1 m1 Hk Ej1 Ev1 Ed1 Em1. apply (frame_make own (m_mem st) i k); [exact Hk|exact Lh|]. now apply (C k).
    + eexists. exists M'. split; [now rewrite El|]. split; [exact A|exact LM].
  - (* Do *)
    destruct (nth_error jobs i) as [j|] eqn:Ej; [|discriminate E]. destruct (nth_error (m_calls st) i) as [d|] eqn:Ed; [|discriminate E].
    destruct d as [|cap prodp s]; [discriminate E|]. destruct (p_idle c) eqn:Hc; [discriminate E|].
    destruct (val_at _ _ Ej) as (v & Ev). destruct (some_at _ ms i _ Lm ltac:(eapply nth_some_lt, Ej)) as (m & Em).
    pose proof (C _ _ _ _ _ Ej Ev Ed Em) as Ci. cbn [cinv] in Ci. destruct Ci as (h1 & N & V & O0 & o & -> & L1 & G & B & F & N1 & Evv & I & Ho).
    pose proof (inside_step (j_np j) (length h1) cap s (m_mem st) o c Hc) as Ei.
    destruct (p_step (j_np j) (length h1) cap (inside s (m_mem st) []) c) as [r0|] eqn:Er; [|discriminate E].
    destruct (psim_step h1 (j_np j) N cap V O0 G B F N1 _ _ _ _ I Ei) as (c' & m' & E1 & I' & Lt). rewrite Hc in Lt.
    destruct r0 as [s'| |]; try discriminate E1. cbn [bind] in E1, E. injection E1 as <-. injection E as <-.
    assert (Hrest : exists own', length h0 <= length (p_mem s') /\ (forall a, a < length h0 -> get (p_mem s') a = get h0 a) /\
      (forall a, In a o <-> length h0 <= a < length (p_mem s') /\ own' a <> i) /\
      (forall k j v d m, k <> i -> nth_error jobs k = Some j -> nth_error vals k = Some v -> nth_error (m_calls st) k = Some d -> nth_error ms k = Some m ->
         exists m', m' <= m /\ cinv own' (p_mem s') k j v d m')).
    { destruct (effect _ _ _ _ _ _ Hc Er) as [Ee|[Ee|(k & a & w & En & Ee)]]; cbn [inside p_mem] in Ee; rewrite Ee.
      - exists own. split; [exact Lh|]. split; [exact Hh|]. split; [exact Ho|]. intros k j1 v1 d1 m1 Hk Ej1 Ev1 Ed1 Em1. exists m1. split; [lia|]. now apply (C k).
      - exists (took own (m_mem st) i). rewrite app_length. split; [lia|]. split; [intros a La; rewrite get_app by lia; now apply Hh|]. split.
        + intros a. rewrite Ho. destruct (Nat.lt_ge_cases a (length (m_mem st))) as [L|L].
          * rewrite took_old by exact L. split; intros [H1 H2]; (split; [lia|exact H2]).
          * rewrite took_new by exact L. split; [lia|intros [_ H]; now destruct H].
        + intros k j1 v1 d1 m1 Hk Ej1 Ev1 Ed1 Em1. apply (frame_make own (m_mem st) i k); [exact Hk|exact Lh|]. now apply (C k).
      - rewrite (inside_next _ _ _ _ _ o) in En. destruct (pnext_owned h1 (j_np j) N cap V O0 B F _ _ _ _ I En) as [[X _]|Ow]; [discriminate X|]. cbn [at_addr] in Ow.
        destruct (powns_ours h1 (j_np j) N cap V O0 B _ _ _ _ I Ow) as [A1 A2]. cbn [inside p_other] in A2.
        pose proof (owned_in h1 (j_np j) N cap V O0 B _ _ _ _ I Ow) as A3. cbn [inside p_mem] in A3.
        assert (Oa : own a = i). { destruct (Nat.eq_dec (own a) i) as [H|H]; [exact H|]. exfalso. apply A2, Ho. split; [lia|exact H]. }
        exists own. rewrite length_upd. split; [exact Lh|]. split; [|split; [exact Ho|]].
        + intros b Lb. rewrite nth_upd by exact A3. destruct (Nat.eqb_spec b a); [lia|now apply Hh].
        + intros k' j1 v1 d1 m1 Hk Ej1 Ev1 Ed1 Em1. apply (frame_set own (m_mem st) i k'); [exact Hk|lia|exact Oa|]. now apply (C k'). }
    destruct Hrest as (own' & Q1 & Q2 & Q3 & Q4).
    destruct (assemble (m_calls st) own' (p_mem s') ms i j v _ (Running cap (length h1) s') m m' Lm Lc Ej Ev Ed Em Q1 Q2) as (M' & A & LM); auto.
    + cbn [cinv]. exists h1, N, V, O0, o. split; [reflexivity|]. do 6 (split; [assumption|]). split; [exact I'|exact Q3].
    + eexists. exists M'. split; [reflexivity|]. split; [exact A|exact LM].
Qed.

Lemma all_start : exists M, allinv (m_start jobs h0) M.
Proof.
  eexists. exists (fun _ => length jobs), (map weight jobs). split; [reflexivity|]. unfold m_start. cbn [m_mem m_calls]. rewrite !map_length.
  do 2 (split; [reflexivity|]). split; [lia|]. split; [reflexivity|]. intros i j v d m Ej Ev Ed Em. rewrite nth_error_map, Ej in Ed, Em.
  cbn [option_map] in Ed, Em. injection Ed as <-. injection Em as <-. cbn [cinv]. split; [reflexivity|]. lia.
Qed.

(** goroutine k of call i reads a number that nobody writes, or uses one that call i owns *)
Lemma next_is : forall own h i j v cap prodp s m k y, cinv own h i j v (Running cap prodp s) m ->
  p_next_of (j_np j) prodp (inside s h []) k = Some y ->
  (y = Rd (at_addr y) /\ (forall b, length h0 <= b < length h -> own b <> i -> b <> at_addr y)) \/
  (length h0 <= at_addr y < length h /\ own (at_addr y) = i).
Proof.
  intros own h i j v cap prodp s m k y C E. cbn [cinv] in C. destruct C as (h1 & N & V & O0 & o & -> & L1 & G & B & F & N1 & Evv & I & Ho).
  rewrite (inside_next _ _ _ _ _ o) in E. destruct (pnext_owned h1 (j_np j) N cap V O0 B F _ _ _ _ I E) as [[X Sh]|Ow].
  - left. split; [exact X|]. intros b Lb Ob ->. apply (pother_new h1 (j_np j) N cap V O0 _ _ (at_addr y) I); [|exact Sh]. apply Ho. now split.
  - right. destruct (powns_ours h1 (j_np j) N cap V O0 B _ _ _ _ I Ow) as [A1 A2].
    pose proof (owned_in h1 (j_np j) N cap V O0 B _ _ _ _ I Ow) as A3. cbn [inside p_mem p_other] in *. split; [lia|].
    destruct (Nat.eq_dec (own (at_addr y)) i) as [H|H]; [exact H|]. exfalso. apply A2, Ho. split; [lia|exact H].
Qed.
(** within one call *)
Lemma next_apart : forall own h i j v cap prodp s m k l y z, cinv own h i j v (Running cap prodp s) m -> k <> l ->
  p_next_of (j_np j) prodp (inside s h []) k = Some y -> p_next_of (j_np j) prodp (inside s h []) l = Some z ->
  at_addr y = at_addr z -> y = Rd (at_addr y) /\ z = Rd (at_addr z).
Proof.
  intros own h i j v cap prodp s m k l y z C Hkl Ey Ez Ea. cbn [cinv] in C.
  destruct C as (h1 & N & V & O0 & o & -> & L1 & G & B & F & N1 & Evv & I & Ho). rewrite (inside_next _ _ _ _ _ o) in Ey, Ez.
  destruct (pnext_owned h1 (j_np j) N cap V O0 B F _ _ _ _ I Ey) as [[Y1 Y2]|Oy], (pnext_owned h1 (j_np j) N cap V O0 B F _ _ _ _ I Ez) as [[Z1 Z2]|Oz].
  - now split.
  - exfalso. destruct (powns_ours h1 (j_np j) N cap V O0 B _ _ _ _ I Oz) as [A _]. destruct Y2. lia.
  - exfalso. destruct (powns_ours h1 (j_np j) N cap V O0 B _ _ _ _ I Oy) as [A _]. destruct Z2. lia.
  - exfalso. rewrite Ea in Oy. apply Hkl. exact (powns_one h1 (j_np j) N cap V O0 _ _ _ _ _ I Oy Oz).
Qed.
Lemma ret_is : forall own h i j v cap prodp s m r, cinv own h i j v (Running cap prodp s) m -> p_ret prodp (inside s h []) = Some r ->
  snd r = v /\ length h0 <= fst r < length h /\ own (fst r) = i.
Proof.
  intros own h i j v cap prodp s m r C E. cbn [cinv] in C. destruct C as (h1 & N & V & O0 & o & -> & L1 & G & B & F & N1 & -> & I & Ho).
  change (p_ret (length h1) (inside s h o) = Some r) in E.
  destruct (psim_progress h1 (j_np j) N cap V O0 B _ _ I) as [(w & Ew & E1 & E2)|[Ew _]]; rewrite E in Ew; [|discriminate Ew]. injection Ew as <-.
  assert (Ow : powns h1 (inside s h o) 0 (fst r)) by (left; exact E1).
  destruct (powns_ours h1 (j_np j) N cap V O0 B _ _ _ _ I Ow) as [A1 A2]. pose proof (owned_in h1 (j_np j) N cap V O0 B _ _ _ _ I Ow) as A3.
  cbn [inside p_mem p_other] in *. split; [exact E2|]. split; [lia|].
  destruct (Nat.eq_dec (own (fst r)) i) as [H|H]; [exact H|]. exfalso. apply A2, Ho. split; [lia|exact H].
Qed.

Lemma results_spec : forall h l,
  (exists rs, results h l = Some rs /\ length rs = length l /\ forall i d, nth_error l i = Some d ->
     exists cap prodp s r, d = Running cap prodp s /\ p_ret prodp (inside s h []) = Some r /\ nth_error rs i = Some r) \/
  (results h l = None /\ exists i d, nth_error l i = Some d /\
     (d = Waiting \/ exists cap prodp s, d = Running cap prodp s /\ p_ret prodp (inside s h []) = None)).
Proof.
  intros h. induction l as [|d l IH]; cbn [results].
  - left. exists []. do 2 (split; [reflexivity|]). intros [|i] d E; discriminate E.
  - destruct d as [|cap prodp s].
    + right. split; [reflexivity|]. exists 0, Waiting. split; [reflexivity|]. now left.
    + destruct (p_ret prodp (inside s h [])) as [r|] eqn:Er.
      * destruct IH as [(rs & -> & L & H)|[-> (i & d & E & H)]].
        -- left. exists (r :: rs). split; [reflexivity|]. split; [cbn [length]; congruence|]. intros [|i] d E; cbn [nth_error] in *; [|now apply H].
           injection E as <-. now exists cap, prodp, s, r.
        -- right. split; [reflexivity|]. now exists (S i), d.
      * right. split; [reflexivity|]. exists 0, (Running cap prodp s). split; [reflexivity|]. right. now exists cap, prodp, s.
Qed.
Lemma list_ext : forall A (l l' : list A), (forall i, nth_error l i = nth_error l' i) -> l = l'.
Proof.
  intros A. induction l as [|x l IH]; intros [|y l'] H; [reflexivity|specialize (H 0); discriminate H..|].
  pose proof (H 0) as H0. cbn [nth_error] in H0. injection H0 as ->. f_equal. apply IH. intros i. exact (H (S i)).
Qed.

Lemma all_progress : forall st M, allinv st M ->
  (exists rs, m_ret st = Some rs /\ map snd rs = vals /\ NoDup (map fst rs) /\ Forall (fun r => length h0 <= fst r) rs) \/
  (m_ret st = None /\ exists c r, m_step jobs st c = Some r).
Proof.
  intros st M (own & ms & _ & Lm & Lc & Lh & Hh & C). unfold m_ret. pose proof (forall2_len _ _ _ _ _ HF) as Lv.
  destruct (results_spec (m_mem st) (m_calls st)) as [(rs & -> & L & H)|[-> (i & d & Ed & H)]].
  - left. exists rs. split; [reflexivity|].
    assert (K : forall i r, nth_error rs i = Some r -> exists v, nth_error vals i = Some v /\ snd r = v /\ length h0 <= fst r < length (m_mem st) /\ own (fst r) = i).
    { intros i r Er. pose proof (nth_some_lt _ _ _ _ Er) as Li. destruct (some_at _ (m_calls st) i _ eq_refl ltac:(lia)) as (d & Ed).
      destruct (H i d Ed) as (cap & prodp & s & r' & -> & Ep & Er'). rewrite Er in Er'. injection Er' as <-.
      destruct (some_at _ jobs i _ eq_refl ltac:(lia)) as (j & Ej). destruct (val_at _ _ Ej) as (v & Ev). destruct (some_at _ ms i _ Lm ltac:(lia)) as (m & Em).
      exists v. split; [exact Ev|]. exact (ret_is _ _ _ _ _ _ _ _ _ _ (C _ _ _ _ _ Ej Ev Ed Em) Ep). }
    split; [|split].
    + apply list_ext. intros i. rewrite nth_error_map. destruct (nth_error rs i) as [r|] eqn:Er.
      * destruct (K i r Er) as (v & -> & <- & _). reflexivity.
      * cbn [option_map]. symmetry. apply nth_error_None. apply nth_error_None in Er. lia.
    + apply NoDup_nth_error. rewrite map_length. intros i k Li E. rewrite !nth_error_map in E.
      destruct (some_at _ rs i _ eq_refl Li) as (r & Er). rewrite Er in E. cbn [option_map] in E.
      destruct (nth_error rs k) as [r'|] eqn:Er'; [|discriminate E]. injection E as E.
      destruct (K _ _ Er) as (_ & _ & _ & _ & O1). destruct (K _ _ Er') as (_ & _ & _ & _ & O2). congruence.
    + apply Forall_forall. intros r Ir. apply In_nth_error in Ir. destruct Ir as [i Er]. destruct (K _ _ Er) as (_ & _ & _ & H1 & _). cbn beta. exact (proj1 H1).
  - right. split; [reflexivity|]. pose proof (nth_some_lt _ _ _ _ Ed) as Li.
    destruct (some_at _ jobs i _ eq_refl ltac:(lia)) as (j & Ej). destruct (val_at _ _ Ej) as (v & Ev). destruct (some_at _ ms i _ Lm ltac:(lia)) as (m & Em).
    destruct H as [->|(cap & prodp & s & -> & Er)].
    + exists (Begin i). cbn [m_step]. rewrite Ej, Ed. eexists. reflexivity.
    + pose proof (C _ _ _ _ _ Ej Ev Ed Em) as Ci. cbn [cinv] in Ci. destruct Ci as (h1 & N & V & O0 & o & -> & L1 & G & B & F & N1 & _ & I & Ho).
      change (p_ret (length h1) (inside s (m_mem st) o) = None) in Er.
      destruct (psim_progress h1 (j_np j) N cap V O0 B _ _ I) as [(w & Ew & _)|(_ & ch & r & Hc & Es)]; [congruence|].
      rewrite (inside_step _ _ _ _ _ _ _ Hc) in Es. exists (Do i ch). cbn [m_step]. rewrite Ej, Ed, Hc.
      destruct (p_step (j_np j) (length h1) cap (inside s (m_mem st) []) ch); [eexists; reflexivity|discriminate Es].
Qed.
End All.
