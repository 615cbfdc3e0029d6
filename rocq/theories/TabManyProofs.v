(** What each call of TabManyModel owns, whatever the others do. *)
From Coq Require Import ZArith Bool String List Lia.
From Verif Require Import GoBig GoBigFacts ListUpd Sched TableModel TableProofs TabRaceModel TabRaceProofs TabManyModel.
Import ListNotations.
Local Open Scope nat_scope.
Local Notation length := List.length.

Definition jbytes (j : targs) := list_ascii_of_string (big_bytes (b_x j)).
Definition jstep (j : targs) (h1 : memory) (O0 : list addr) :=
  a_step (b_rows j) (b_np j) (t_chunk (b_t j)) (jbytes j) (b_R j) (res_at h1) (opt_at h1) O0.
Definition jnext (j : targs) (h1 : memory) := next_of (b_rows j) (b_np j) (res_at h1) (opt_at h1).

(** ** one step of one call *)
Lemma within_step : forall j h1 O0 s h o c, outer c = false ->
  jstep j h1 O0 (within s h o) c =
  match call_step j h1 (within s h []) c with
  | Some r => Some (do s' <- r; Ret (within s' (a_mem s') o))
  | None => None
  end.
Proof.
  intros j h1 O0 s h o c Hc. destruct c as [|w|w|w| | | |w|w|v|a v]; try discriminate Hc; unfold jstep, call_step, a_step, within, jbytes;
    cbn [a_mem a_main a_in a_workers a_out a_coll a_other].
  - destruct (a_main s) as [[|i]|]; try reflexivity. destruct (_ <? _); reflexivity.
  - destruct (nth_error (a_workers s) w) as [[]|]; try reflexivity. destruct (a_in s); reflexivity.
  - destruct (nth_error (a_workers s) w) as [pc|]; [|reflexivity]. destruct (work_step _ _ _ _ h w pc) as [[[h' pc']| |]|]; reflexivity.
  - destruct (nth_error (a_workers s) w) as [[]|]; try reflexivity. destruct (_ <? _); reflexivity.
  - destruct (a_coll s); try reflexivity. destruct (a_out s); reflexivity.
  - destruct (coll_step _ _ h (a_coll s)) as [[[h' pc']| |]|]; reflexivity.
  - destruct (a_main s) as [[|i]|]; try reflexivity. destruct (a_coll s); reflexivity.
  - destruct (nth_error (a_workers s) w) as [[]|]; try reflexivity. destruct (a_in s); try reflexivity. destruct (a_main s); reflexivity.
  - destruct (nth_error (a_workers s) w) as [[]|]; try reflexivity. destruct (a_main s); reflexivity.
Qed.
(** what a step does to the memory, and that [next_of] tells it *)
Lemma teffect : forall j h1 s c s', outer c = false -> call_step j h1 s c = Some (Ret s') ->
  a_mem s' = a_mem s \/ a_mem s' = a_mem s ++ [0%Z] \/
  exists k a v, jnext j h1 s k = Some (Wr a) /\ a_mem s' = upd (a_mem s) a v.
Proof.
  intros j h1 s c s' Hc E. destruct c as [|w|w|w| | | |w|w|v|a v]; try discriminate Hc; unfold call_step, a_step in E.
  - destruct (a_main s) as [[|i]|]; try discriminate E. destruct (_ <? _); [|discriminate E]. injection E as <-. auto.
  - destruct (nth_error (a_workers s) w) as [[]|]; try discriminate E. destruct (a_in s); [discriminate E|]. injection E as <-. auto.
  - destruct (nth_error (a_workers s) w) as [pc|] eqn:Ew; [|discriminate E].
    destruct pc; cbn [work_step] in E; try discriminate E.
    + destruct (go_slice _ _ _) as [b| |]; try discriminate E. cbn [bind] in E. injection E as <-. right; right.
      exists (S w), (opt_at h1 w). eexists. unfold jnext. cbn [next_of]. rewrite Ew. split; reflexivity.
    + injection E as <-. auto.
    + destruct (go_index _ _) as [b| |]; try discriminate E. cbn [bind] in E. injection E as <-. auto.
    + injection E as <-. auto.
    + injection E as <-. auto.
    + injection E as <-. right; right. exists (S w), a. eexists. unfold jnext. cbn [next_of]. rewrite Ew. split; reflexivity.
  - destruct (nth_error (a_workers s) w) as [[]|]; try discriminate E. destruct (_ <? _); [|discriminate E]. injection E as <-. auto.
  - destruct (a_coll s); try discriminate E. destruct (a_out s); [discriminate E|]. injection E as <-. auto.
  - destruct (a_coll s) eqn:Ek; cbn [coll_step] in E; try discriminate E; try (injection E as <-; auto; fail).
    + injection E as <-. right; right. exists 0, (res_at h1). eexists. unfold jnext. cbn [next_of]. rewrite Ek. split; reflexivity.
    + destruct (go_mod _ _) as [b| |]; try discriminate E. cbn [bind] in E. injection E as <-. auto.
    + injection E as <-. right; right. exists 0, (res_at h1). eexists. unfold jnext. cbn [next_of]. rewrite Ek. split; reflexivity.
  - destruct (a_main s) as [[|i]|]; try discriminate E. destruct (a_coll s); try discriminate E. injection E as <-. auto.
  - destruct (nth_error (a_workers s) w) as [[]|]; try discriminate E. destruct (a_in s); try discriminate E. destruct (a_main s); [|discriminate E]. injection E as <-. auto.
  - destruct (nth_error (a_workers s) w) as [[]|]; try discriminate E. destruct (a_main s); [discriminate E|]. injection E as <-. auto.
Qed.

(** ** one call while others go on *)
(** the call begins in the memory h1, where the others have the numbers O0 *)
Definition okc (h1 : memory) (O0 : list addr) (j : targs) (g : Z) : Prop :=
  map (get h1) (b_rows j) = t_table (b_t j) /\ Forall (still h1 O0) (b_rows j) /\ get h1 (b_np j) = t_n (b_t j) /\
  still h1 O0 (b_np j) /\ (1 < t_n (b_t j))%Z /\ (forall a, In a O0 -> a < length h1) /\ tbl_ok g (t_n (b_t j)) (b_t j) /\
  length (jbytes j) <= t_chunk (b_t j) * length (t_table (b_t j)) /\ 1 <= b_R j.
Definition jinv (h1 : memory) (O0 : list addr) (j : targs) (g : Z) (c : astate) (m : nat) : Prop :=
  inv h1 (b_t j) (jbytes j) (b_R j) O0 g c m.

Section One.
Variable h1 : memory.
Variable O0 : list addr.
Variable j : targs.
Variable g : Z.
Hypothesis H : okc h1 O0 j g.

Lemma w_step : forall c m ch st, jinv h1 O0 j g c m -> jstep j h1 O0 c ch = Some st ->
  exists c' m', st = Ret c' /\ jinv h1 O0 j g c' m' /\ (if a_idle ch then m' <= m else m' < m).
Proof. destruct H as (A & B & C & D & E & F & G & K & L). exact (sim_step h1 _ _ _ _ _ O0 A B C D ltac:(lia) F g E G K). Qed.
Lemma w_prog : forall c m, jinv h1 O0 j g c m ->
  (exists v, a_ret c = Some v /\ fst v = res_at h1 /\ snd v = (g ^ bval (jbytes j) mod t_n (b_t j))%Z) \/
  (a_ret c = None /\ exists ch st, a_idle ch = false /\ jstep j h1 O0 c ch = Some st).
Proof. intros c m I. destruct H as (A & B & C & D & E & F & G & K & L). exact (sim_progress h1 _ _ _ _ _ O0 F g K c m L I). Qed.
Lemma w_next_ : forall c m k x, jinv h1 O0 j g c m -> jnext j h1 c k = Some x ->
  (x = Rd (at_addr x) /\ still h1 O0 (at_addr x)) \/ owns h1 c k (at_addr x).
Proof. destruct H as (A & B & C & D & E & F & G & K & L). exact (next_owned h1 _ _ _ _ _ O0 B D g). Qed.
Lemma w_one : forall c m k l a, jinv h1 O0 j g c m -> owns h1 c k a -> owns h1 c l a -> k = l.
Proof. destruct H as (A & B & C & D & E & F & G & K & L). exact (owns_one h1 (b_rows j) (b_np j) _ _ _ O0 F g K). Qed.
(** not one of the others' *)
Lemma w_ours : forall c m k a, jinv h1 O0 j g c m -> owns h1 c k a -> length h1 <= a /\ ~ In a (a_other c ++ O0).
Proof.
  intros c m k a I Ho. destruct H as (A & B & C & D & E & F & G & K & L).
  destruct (owns_ours h1 (b_rows j) (b_np j) _ _ _ O0 F g K _ _ _ _ I Ho) as [X Y]. split; [exact X|]. rewrite in_app_iff. intros [Z|Z]; [exact (Y Z)|].
  apply F in Z. lia.
Qed.
Lemma w_new : forall c m a, jinv h1 O0 j g c m -> In a (a_other c ++ O0) -> ~ still h1 O0 a.
Proof.
  intros c m a I Ia [S1 S2]. destruct H as (A & B & C & D & E & F & G & K & L). apply in_app_iff in Ia. destruct Ia as [Ia|Ia]; [|exact (S2 Ia)].
  pose proof (other_new h1 (b_rows j) (b_np j) _ _ _ O0 F g K _ _ _ I Ia). lia.
Qed.
Lemma w_in : forall c m k a, jinv h1 O0 j g c m -> owns h1 c k a -> a < length (a_mem c).
Proof.
  intros c m k a (s & I & _) Ho. pose proof (si_rng _ _ _ _ _ _ _ I) as Rg. pose proof (si_len _ _ _ _ _ _ _ I) as Ln. pose proof (si_la _ _ _ _ _ _ _ I) as La.
  destruct k as [|w]; cbn [owns] in Ho.
  - destruct Ho as [->|Ho]; [unfold res_at; lia|]. apply Rg. unfold live. rewrite !in_app_iff. tauto.
  - destruct Ho as (pc & Ew & [->|Ho]); [apply nth_some_lt in Ew; unfold opt_at; lia|]. apply Rg. exact (live_w _ _ _ _ Ew Ho).
Qed.
Lemma w_make : forall l c m, jinv h1 O0 j g c m -> exists o' m', m' <= m /\
  jinv h1 O0 j g (within c (a_mem c ++ l) o') m' /\
  forall a, In a o' <-> In a (a_other c) \/ length (a_mem c) <= a < length (a_mem c) + length l.
Proof.
  induction l as [|v l IH]; intros c m I.
  - exists (a_other c), m. split; [lia|]. split; [rewrite app_nil_r; destruct c; exact I|]. intros a. cbn [List.length]. split; [auto|]. intros [Q|Q]; [exact Q|lia].
  - destruct (w_step c m (AOther v) _ I eq_refl) as (c1 & m1 & E & I1 & L1). injection E as <-.
    cbn [a_idle] in L1. destruct (IH _ _ I1) as (o' & m' & L & I' & Hin). exists o', m'. split; [lia|]. cbn [a_mem a_other] in *.
    split; [rewrite <- app_assoc in I'; exact I'|]. intros a. rewrite Hin. rewrite app_length. cbn [List.length In].
    split; [intros [[<-|Q]|Q]; [right; lia|auto|right; lia]|]. intros [Q|Q]; [auto|]. destruct (Nat.eq_dec a (length (a_mem c))); [left; left; auto|right; lia].
Qed.
Lemma w_set : forall c m a v, jinv h1 O0 j g c m -> In a (a_other c ++ O0) -> exists m', m' <= m /\
  jinv h1 O0 j g (within c (upd (a_mem c) a v) (a_other c)) m'.
Proof.
  intros c m a v I Ia. destruct (w_step c m (AOtherSet a v) (Ret (within c (upd (a_mem c) a v) (a_other c))) I) as (c1 & m1 & E & I1 & L1).
  { unfold jstep, a_step. rewrite (proj2 (existsb_exists _ _)); [reflexivity|]. exists a. split; [exact Ia|apply Nat.eqb_refl]. }
  injection E as <-. exists m1. split; [exact L1|exact I1].
Qed.
End One.

(** ** all calls *)
(** a call with these arguments has the result [v] *)
Definition good (h0 : memory) (j : targs) (v : Z) : Prop :=
  exists g, okc h0 [] j g /\ (0 < b_x j)%Z /\ v = (g ^ bval (jbytes j) mod t_n (b_t j))%Z.

Lemma forall2_len : forall A B (R : A -> B -> Prop) l l', Forall2 R l l' -> length l = length l'.
Proof. intros A B R l l' H. induction H; cbn [List.length]; congruence. Qed.

Section All.
Variable h0 : memory.
Variable jobs : list targs.
Variable vals : list Z.
Hypothesis HF : Forall2 (good h0) jobs vals.

Definition weight (j : targs) : nat :=
  S (10 * t_measure (t_init (b_t j) (b_x j) (b_R j)) + rem_of (a_start [] (t_chunk (b_t j)) (jbytes j) (b_R j))).
(** [own a]: the call that made the number a *)
Definition cinv (own : addr -> nat) (h : memory) (i : nat) (j : targs) (v : Z) (d : tcall) (m : nat) : Prop :=
  match d with
  | TWaiting => m = weight j /\ forall a, length h0 <= a < length h -> own a <> i
  | TRunning h1 s =>
      exists g O0 o, okc h1 O0 j g /\ length h0 <= length h1 /\ v = (g ^ bval (jbytes j) mod t_n (b_t j))%Z /\
        jinv h1 O0 j g (within s h o) m /\ forall a, In a (o ++ O0) <-> length h0 <= a < length h /\ own a <> i
  end.
Definition allinv (st : tmany) (M : nat) : Prop :=
  exists own ms, M = nsum (fun m => m) ms /\ length ms = length jobs /\ length (tm_calls st) = length jobs /\
    length h0 <= length (tm_mem st) /\ (forall a, a < length h0 -> get (tm_mem st) a = get h0 a) /\
    forall i j v d m, nth_error jobs i = Some j -> nth_error vals i = Some v -> nth_error (tm_calls st) i = Some d ->
      nth_error ms i = Some m -> cinv own (tm_mem st) i j v d m.

Lemma fits_at : forall i j v, nth_error jobs i = Some j -> nth_error vals i = Some v -> good h0 j v.
Proof.
  revert vals HF. induction jobs as [|x l IH]; intros vs F i j v E1 E2; [destruct i; discriminate E1|]. inversion F; subst.
  destruct i as [|i]; cbn [nth_error] in *; [injection E1 as <-; injection E2 as <-; assumption|]. eapply IH; eassumption.
Qed.
Lemma val_at : forall i j, nth_error jobs i = Some j -> exists v, nth_error vals i = Some v.
Proof.
  intros i j E. destruct (nth_error vals i) as [v|] eqn:Ev; [now exists v|]. exfalso. apply nth_error_None in Ev.
  apply nth_some_lt in E. pose proof (forall2_len _ _ _ _ _ HF). lia.
Qed.
Lemma some_at : forall A (l : list A) i n, length l = n -> i < n -> exists x, nth_error l i = Some x.
Proof. intros A l i n L Li. destruct (nth_error l i) as [x|] eqn:E; [now exists x|]. apply nth_error_None in E. lia. Qed.

(** what the other calls' part of the invariant keeps when call i has done something to the memory *)
Definition took (own : addr -> nat) (h : memory) (i : nat) : addr -> nat := fun a => if length h <=? a then i else own a.
Lemma took_old : forall own h i a, a < length h -> took own h i a = own a.
Proof. intros own h i a L. unfold took. destruct (Nat.leb_spec (length h) a); [lia|reflexivity]. Qed.
Lemma took_new : forall own h i a, length h <= a -> took own h i a = i.
Proof. intros own h i a L. unfold took. destruct (Nat.leb_spec (length h) a); [reflexivity|lia]. Qed.

Lemma frame_make : forall own h i k j v d m l, k <> i -> length h0 <= length h -> cinv own h k j v d m ->
  exists m', m' <= m /\ cinv (took own h i) (h ++ l) k j v d m'.
Proof.
  intros own h i k j v d m l Hk Lh C. destruct d as [|h1 s]; cbn [cinv] in *.
  - exists m. split; [lia|]. destruct C as [E C]. split; [exact E|]. intros a La. rewrite app_length in La.
    destruct (Nat.lt_ge_cases a (length h)) as [L|L]; [rewrite took_old by exact L; apply C; lia|rewrite took_new by exact L; auto].
  - destruct C as (g & O0 & o & Ok & L1 & Ev & I & Ho).
    destruct (w_make h1 O0 j g Ok l _ _ I) as (o' & m' & Lm & I' & Hin). exists m'. split; [exact Lm|].
    exists g, O0, o'. do 3 (split; [assumption|]). split; [exact I'|]. intros a. cbn [within a_other a_mem] in Hin.
    assert (Hq : In a (o' ++ O0) <-> In a (o ++ O0) \/ length h <= a < length h + length l) by (rewrite !in_app_iff, Hin; tauto).
    rewrite Hq, Ho, app_length. destruct (Nat.lt_ge_cases a (length h)) as [L|L].
    + rewrite took_old by exact L. split; [intros [H|H]; [split; [lia|apply H]|lia]|]. intros [H1 H2]. left. split; [lia|exact H2].
    + rewrite took_new by exact L. split; [intros [H|H]; [lia|split; [lia|auto]]|]. intros [H1 H2]. right. lia.
Qed.
Lemma frame_set : forall own h i k j v d m a w, k <> i -> length h0 <= a < length h -> own a = i -> cinv own h k j v d m ->
  exists m', m' <= m /\ cinv own (upd h a w) k j v d m'.
Proof.
  intros own h i k j v d m a w Hk La Oa C. destruct d as [|h1 s]; cbn [cinv] in *.
  - exists m. split; [lia|]. destruct C as [E C]. split; [exact E|]. intros b Lb. rewrite length_upd in Lb. now apply C.
  - destruct C as (g & O0 & o & Ok & L1 & Ev & I & Ho).
    assert (Ia : In a (o ++ O0)) by (apply Ho; split; [exact La|congruence]).
    destruct (w_set h1 O0 j g Ok _ _ a w I Ia) as (m' & Lm & I'). exists m'. split; [exact Lm|].
    exists g, O0, o. do 3 (split; [assumption|]). split; [exact I'|]. intros b. now rewrite Ho, length_upd.
Qed.

(** putting the parts together: the others have not a larger measure *)
Lemma assemble : forall (calls : list tcall) (own' : addr -> nat) (h' : memory) ms i j v d d' m m',
  length ms = length jobs -> length calls = length jobs -> nth_error jobs i = Some j -> nth_error vals i = Some v -> nth_error calls i = Some d ->
  nth_error ms i = Some m -> length h0 <= length h' -> (forall a, a < length h0 -> get h' a = get h0 a) ->
  cinv own' h' i j v d' m' ->
  (forall k j v d m, k <> i -> nth_error jobs k = Some j -> nth_error vals k = Some v -> nth_error calls k = Some d -> nth_error ms k = Some m ->
     exists m', m' <= m /\ cinv own' h' k j v d m') ->
  exists M', allinv (TMany h' (upd calls i d')) M' /\ M' + m <= nsum (fun m => m) ms + m'.
Proof.
  intros calls own' h' ms i j v d d' m m' Lm Lc Ej Ev Ed Em Lh Hh C Rest.
  assert (K : exists ms', length ms' = length ms /\ nsum (fun m => m) ms' <= nsum (fun m => m) ms /\ nth_error ms' i = Some m /\
    forall k j v d m, k <> i -> nth_error jobs k = Some j -> nth_error vals k = Some v -> nth_error calls k = Some d -> nth_error ms' k = Some m ->
      cinv own' h' k j v d m).
  { clear C. assert (Q : forall n, n <= length ms -> exists ms', length ms' = length ms /\ nsum (fun m => m) ms' <= nsum (fun m => m) ms /\ nth_error ms' i = Some m /\
      (forall k, n <= k -> nth_error ms' k = nth_error ms k) /\
      forall k j v d m, k < n -> k <> i -> nth_error jobs k = Some j -> nth_error vals k = Some v -> nth_error calls k = Some d -> nth_error ms' k = Some m ->
        cinv own' h' k j v d m).
    { induction n as [|n IH]; intros Ln.
      - exists ms. split; [reflexivity|]. split; [lia|]. split; [exact Em|]. split; [reflexivity|]. intros. lia.
      - destruct IH as (ms1 & L1 & S1 & E1 & T1 & C1); [lia|]. destruct (Nat.eq_dec n i) as [->|Hn].
        + exists ms1. split; [exact L1|]. split; [exact S1|]. split; [exact E1|]. split; [intros k Lk; apply T1; lia|].
          intros k j1 v1 d1 m1 Lk Hk. apply C1; [lia|exact Hk].
        + destruct (some_at _ jobs n _ eq_refl ltac:(lia)) as (jn & Ejn). destruct (val_at _ _ Ejn) as (vn & Evn).
          destruct (some_at _ calls n _ Lc ltac:(lia)) as (dn & Edn). destruct (some_at _ ms n _ eq_refl ltac:(lia)) as (mn & Emn).
          destruct (Rest n _ _ _ _ Hn Ejn Evn Edn Emn) as (mn' & Lmn & Cn).
          assert (Emn1 : nth_error ms1 n = Some mn) by (rewrite T1 by lia; exact Emn).
          exists (upd ms1 n mn'). split; [now rewrite length_upd|]. split.
          { pose proof (nsum_upd _ (fun m => m) _ _ _ mn' Emn1) as Nu. cbn beta in Nu. lia. }
          split; [now rewrite nth_upd_neq by auto|]. split; [intros k Lk; rewrite nth_upd_neq by lia; apply T1; lia|].
          intros k j1 v1 d1 m1 Lk Hk Ej1 Ev1 Ed1 Em1. destruct (Nat.eq_dec k n) as [->|Hkn].
          * rewrite nth_upd_eq in Em1 by lia. injection Em1 as <-. rewrite Ejn in Ej1. injection Ej1 as <-. rewrite Evn in Ev1. injection Ev1 as <-.
            rewrite Edn in Ed1. injection Ed1 as <-. exact Cn.
          * rewrite nth_upd_neq in Em1 by exact Hkn. apply C1; auto. lia. }
    destruct (Q (length ms) (le_n _)) as (ms' & L1 & S1 & E1 & _ & C1). exists ms'. do 3 (split; [assumption|]).
    intros k j1 v1 d1 m1 Hk Ej1 Ev1 Ed1 Em1. apply C1; auto. apply nth_some_lt in Ej1. lia. }
  destruct K as (ms' & L1 & S1 & E1 & C1). pose proof (nsum_upd _ (fun m => m) _ _ _ m' E1) as Nu. cbn beta in Nu.
  exists (nsum (fun m => m) (upd ms' i m')). split; [|lia].
  exists own', (upd ms' i m'). split; [reflexivity|]. cbn [tm_mem tm_calls]. rewrite !length_upd. split; [lia|]. split; [exact Lc|]. split; [exact Lh|]. split; [exact Hh|].
  intros k j1 v1 d1 m1 Ej1 Ev1 Ed1 Em1. destruct (Nat.eq_dec k i) as [->|Hk].
  - rewrite nth_upd_eq in Ed1 by (apply nth_some_lt in Ed; exact Ed). injection Ed1 as <-.
    rewrite nth_upd_eq in Em1 by (apply nth_some_lt in E1; exact E1). injection Em1 as <-.
    rewrite Ej in Ej1. injection Ej1 as <-. rewrite Ev in Ev1. injection Ev1 as <-. exact C.
  - rewrite nth_upd_neq in Ed1 by exact Hk. rewrite nth_upd_neq in Em1 by exact Hk. now apply (C1 k).
Qed.

Lemma begin_ok : forall h j v, good h0 j v -> length h0 <= length h -> (forall a, a < length h0 -> get h a = get h0 a) ->
  let O := seq (length h0) (length h - length h0) in
  exists g m, okc h O j g /\ v = (g ^ bval (jbytes j) mod t_n (b_t j))%Z /\
    jinv h O j g (a_start h (t_chunk (b_t j)) (jbytes j) (b_R j)) m /\ m < weight j.
Proof.
  intros h j v (g & (A & B & C & D & E & F & G & K & L) & Hx & Ev) Lh Hh O. exists g. eexists.
  assert (IO : forall a, In a O <-> length h0 <= a < length h) by (intros a; unfold O; rewrite in_seq; lia).
  assert (St : forall a, still h0 [] a -> still h O a /\ get h a = get h0 a).
  { intros a [X _]. split; [split; [lia|rewrite IO; lia]|now apply Hh]. }
  assert (Ok : okc h O j g).
  { split; [|split; [|split; [|split; [apply St, D|split; [exact E|split; [intros a Ia; apply IO in Ia; lia|split; [exact G|split; [exact K|exact L]]]]]]]].
    - rewrite <- A. apply map_ext_in. intros a Ia. apply St. exact (proj1 (Forall_forall _ _) B a Ia).
    - apply Forall_forall. intros a Ia. apply St. exact (proj1 (Forall_forall _ _) B a Ia).
    - rewrite <- C. apply St, D. }
  split; [exact Ok|]. split; [exact Ev|]. split.
  - destruct Ok as (_ & _ & _ & _ & _ & F' & _). exact (start_inv_at h (b_t j) (jbytes j) (b_R j) O F' g E G K (b_x j) eq_refl Hx).
  - unfold weight. apply le_n.
Qed.

Lemma all_step : forall st M c r, allinv st M -> tm_step jobs st c = Some r ->
  exists st' M', r = Ret st' /\ allinv st' M' /\ (if tm_idle c then M' <= M else M' < M).
Proof.
  intros st M c r (own & ms & -> & Lm & Lc & Lh & Hh & C) E. destruct c as [i|i c]; cbn [tm_step] in E.
  - (* TBegin *)
    destruct (nth_error jobs i) as [j|] eqn:Ej; [|discriminate E]. destruct (nth_error (tm_calls st) i) as [d|] eqn:Ed; [|discriminate E].
    destruct d; [|discriminate E]. destruct (val_at _ _ Ej) as (v & Ev). destruct (some_at _ ms i _ Lm ltac:(eapply nth_some_lt, Ej)) as (m & Em).
    pose proof (C _ _ _ _ _ Ej Ev Ed Em) as Ci. cbn [cinv] in Ci. destruct Ci as [Ew Fr].
    destruct (begin_ok _ _ _ (fits_at _ _ _ Ej Ev) Lh Hh) as (g & m' & Ok & Evv & I & Lt). cbv zeta in E. fold (jbytes j) in E.
    set (s := a_start (tm_mem st) (t_chunk (b_t j)) (jbytes j) (b_R j)) in *.
    assert (El : a_mem s = tm_mem st ++ 1%Z :: repeat 0%Z (b_R j)) by reflexivity. injection E as <-.
    set (l := 1%Z :: repeat 0%Z (b_R j)) in *.
    destruct (assemble (tm_calls st) (took own (tm_mem st) i) (tm_mem st ++ l) ms i j v TWaiting (TRunning (tm_mem st) s) m m') as (M' & A & LM); auto.
    + rewrite app_length. lia.
    + intros a La. rewrite get_app by lia. now apply Hh.
    + cbn [cinv]. exists g, (seq (length h0) (length (tm_mem st) - length h0)), [].
      do 3 (split; [assumption|]). split; [exact I|].
      intros a. cbn [app]. rewrite in_seq, app_length. destruct (Nat.lt_ge_cases a (length (tm_mem st))) as [L|L].
      * rewrite took_old by exact L. split; [intros H; split; [lia|apply Fr; lia]|lia].
      * rewrite took_new by exact L. split; [lia|intros [_ H]; now destruct H].
    + intros k j1 v1 d1 m1 Hk Ej1 Ev1 Ed1 Em1. apply (frame_make own (tm_mem st) i k); [exact Hk|exact Lh|]. now apply (C k).
    + eexists. exists M'. split; [reflexivity|]. split; [exact A|]. cbn [tm_idle]. lia.
  - (* TDo *)
    destruct (nth_error jobs i) as [j|] eqn:Ej; [|discriminate E]. destruct (nth_error (tm_calls st) i) as [d|] eqn:Ed; [|discriminate E].
    destruct d as [|h1 s]; [discriminate E|]. destruct (outer c) eqn:Hc; [discriminate E|].
    destruct (val_at _ _ Ej) as (v & Ev). destruct (some_at _ ms i _ Lm ltac:(eapply nth_some_lt, Ej)) as (m & Em).
    pose proof (C _ _ _ _ _ Ej Ev Ed Em) as Ci. cbn [cinv] in Ci. destruct Ci as (g & O0 & o & Ok & L1 & Evv & I & Ho).
    pose proof (within_step j h1 O0 s (tm_mem st) o c Hc) as Ei.
    destruct (call_step j h1 (within s (tm_mem st) []) c) as [r0|] eqn:Er; [|discriminate E].
    destruct (w_step h1 O0 j g Ok _ _ _ _ I Ei) as (c' & m' & E1 & I' & Lt).
    destruct r0 as [s'| |]; try discriminate E1. cbn [bind] in E1, E. injection E1 as <-. injection E as <-.
    assert (Hrest : exists own', length h0 <= length (a_mem s') /\ (forall a, a < length h0 -> get (a_mem s') a = get h0 a) /\
      (forall a, In a (o ++ O0) <-> length h0 <= a < length (a_mem s') /\ own' a <> i) /\
      (forall k j v d m, k <> i -> nth_error jobs k = Some j -> nth_error vals k = Some v -> nth_error (tm_calls st) k = Some d -> nth_error ms k = Some m ->
         exists m', m' <= m /\ cinv own' (a_mem s') k j v d m')).
    { destruct (teffect _ _ _ _ _ Hc Er) as [Ee|[Ee|(k & a & w & En & Ee)]]; cbn [within a_mem] in Ee; rewrite Ee.
      - exists own. split; [exact Lh|]. split; [exact Hh|]. split; [exact Ho|]. intros k j1 v1 d1 m1 Hk Ej1 Ev1 Ed1 Em1. exists m1. split; [lia|]. now apply (C k).
      - exists (took own (tm_mem st) i). rewrite app_length. split; [lia|]. split; [intros a La; rewrite get_app by lia; now apply Hh|]. split.
        + intros a. rewrite Ho. destruct (Nat.lt_ge_cases a (length (tm_mem st))) as [L|L].
          * rewrite took_old by exact L. split; intros [H1 H2]; (split; [lia|exact H2]).
          * rewrite took_new by exact L. split; [lia|intros [_ H]; now destruct H].
        + intros k j1 v1 d1 m1 Hk Ej1 Ev1 Ed1 Em1. apply (frame_make own (tm_mem st) i k); [exact Hk|exact Lh|]. now apply (C k).
      - change (jnext j h1 (within s (tm_mem st) o) k = Some (Wr a)) in En. destruct (w_next_ h1 O0 j g Ok _ _ _ _ I En) as [[X _]|Ow]; [discriminate X|]. cbn [at_addr] in Ow.
        destruct (w_ours h1 O0 j g Ok _ _ _ _ I Ow) as [A1 A2]. cbn [within a_other] in A2.
        pose proof (w_in h1 O0 j g _ _ _ _ I Ow) as A3. cbn [within a_mem] in A3.
        assert (Oa : own a = i). { destruct (Nat.eq_dec (own a) i) as [H|H]; [exact H|]. exfalso. apply A2, Ho. split; [lia|exact H]. }
        exists own. rewrite length_upd. split; [exact Lh|]. split; [|split; [exact Ho|]].
        + intros b Lb. rewrite nth_upd by exact A3. destruct (Nat.eqb_spec b a); [lia|now apply Hh].
        + intros k' j1 v1 d1 m1 Hk Ej1 Ev1 Ed1 Em1. apply (frame_set own (tm_mem st) i k'); [exact Hk|lia|exact Oa|]. now apply (C k'). }
    destruct Hrest as (own' & Q1 & Q2 & Q3 & Q4).
    destruct (assemble (tm_calls st) own' (a_mem s') ms i j v _ (TRunning h1 s') m m' Lm Lc Ej Ev Ed Em Q1 Q2) as (M' & A & LM); auto.
    + cbn [cinv]. exists g, O0, o. do 3 (split; [assumption|]). split; [exact I'|exact Q3].
    + eexists. exists M'. split; [reflexivity|]. split; [exact A|]. cbn [tm_idle]. destruct (a_idle c); lia.
Qed.

Lemma all_start : exists M, allinv (tm_start jobs h0) M.
Proof.
  eexists. exists (fun _ => length jobs), (map weight jobs). split; [reflexivity|]. unfold tm_start. cbn [tm_mem tm_calls]. rewrite !map_length.
  do 2 (split; [reflexivity|]). split; [lia|]. split; [reflexivity|]. intros i j v d m Ej Ev Ed Em. rewrite nth_error_map, Ej in Ed, Em.
  cbn [option_map] in Ed, Em. injection Ed as <-. injection Em as <-. cbn [cinv]. split; [reflexivity|]. lia.
Qed.

(** goroutine k of call i reads a number that nobody writes, or uses one that call i owns *)
Lemma next_is : forall own h i j v h1 s m k y, cinv own h i j v (TRunning h1 s) m -> jnext j h1 (within s h []) k = Some y ->
  (y = Rd (at_addr y) /\ (forall b, length h0 <= b < length h -> own b <> i -> b <> at_addr y)) \/
  (length h0 <= at_addr y < length h /\ own (at_addr y) = i).
Proof.
  intros own h i j v h1 s m k y C E. cbn [cinv] in C. destruct C as (g & O0 & o & Ok & L1 & Evv & I & Ho).
  change (jnext j h1 (within s h o) k = Some y) in E. destruct (w_next_ h1 O0 j g Ok _ _ _ _ I E) as [[X Sh]|Ow].
  - left. split; [exact X|]. intros b Lb Ob ->. apply (w_new h1 O0 j g Ok _ _ (at_addr y) I); [|exact Sh]. apply Ho. now split.
  - right. destruct (w_ours h1 O0 j g Ok _ _ _ _ I Ow) as [A1 A2].
    pose proof (w_in h1 O0 j g _ _ _ _ I Ow) as A3. cbn [within a_mem a_other] in *. split; [lia|].
    destruct (Nat.eq_dec (own (at_addr y)) i) as [H|H]; [exact H|]. exfalso. apply A2, Ho. split; [lia|exact H].
Qed.
(** within one call *)
Lemma next_apart : forall own h i j v h1 s m k l y z, cinv own h i j v (TRunning h1 s) m -> k <> l ->
  jnext j h1 (within s h []) k = Some y -> jnext j h1 (within s h []) l = Some z ->
  at_addr y = at_addr z -> y = Rd (at_addr y) /\ z = Rd (at_addr z).
Proof.
  intros own h i j v h1 s m k l y z C Hkl Ey Ez Ea. cbn [cinv] in C.
  destruct C as (g & O0 & o & Ok & L1 & Evv & I & Ho). change (jnext j h1 (within s h o) k = Some y) in Ey. change (jnext j h1 (within s h o) l = Some z) in Ez.
  destruct (w_next_ h1 O0 j g Ok _ _ _ _ I Ey) as [[Y1 Y2]|Oy], (w_next_ h1 O0 j g Ok _ _ _ _ I Ez) as [[Z1 Z2]|Oz].
  - now split.
  - exfalso. destruct (w_ours h1 O0 j g Ok _ _ _ _ I Oz) as [A _]. destruct Y2. lia.
  - exfalso. destruct (w_ours h1 O0 j g Ok _ _ _ _ I Oy) as [A _]. destruct Z2. lia.
  - exfalso. rewrite Ea in Oy. apply Hkl. exact (w_one h1 O0 j g Ok _ _ _ _ _ I Oy Oz).
Qed.
Lemma ret_is : forall own h i j v h1 s m r, cinv own h i j v (TRunning h1 s) m -> a_ret (within s h []) = Some r ->
  snd r = v /\ length h0 <= fst r < length h /\ own (fst r) = i.
Proof.
  intros own h i j v h1 s m r C E. cbn [cinv] in C. destruct C as (g & O0 & o & Ok & L1 & -> & I & Ho).
  change (a_ret (within s h o) = Some r) in E.
  destruct (w_prog h1 O0 j g Ok _ _ I) as [(w & Ew & E1 & E2)|[Ew _]]; rewrite E in Ew; [|discriminate Ew]. injection Ew as <-.
  assert (Ow : owns h1 (within s h o) 0 (fst r)) by (left; exact E1).
  destruct (w_ours h1 O0 j g Ok _ _ _ _ I Ow) as [A1 A2]. pose proof (w_in h1 O0 j g _ _ _ _ I Ow) as A3.
  cbn [within a_mem a_other] in *. split; [exact E2|]. split; [lia|].
  destruct (Nat.eq_dec (own (fst r)) i) as [H|H]; [exact H|]. exfalso. apply A2, Ho. split; [lia|exact H].
Qed.

Lemma results_spec : forall h l,
  (exists rs, tresults h l = Some rs /\ length rs = length l /\ forall i d, nth_error l i = Some d ->
     exists h1 s r, d = TRunning h1 s /\ a_ret (within s h []) = Some r /\ nth_error rs i = Some r) \/
  (tresults h l = None /\ exists i d, nth_error l i = Some d /\
     (d = TWaiting \/ exists h1 s, d = TRunning h1 s /\ a_ret (within s h []) = None)).
Proof.
  intros h. induction l as [|d l IH]; cbn [tresults].
  - left. exists []. do 2 (split; [reflexivity|]). intros [|i] d E; discriminate E.
  - destruct d as [|h1 s].
    + right. split; [reflexivity|]. exists 0, TWaiting. split; [reflexivity|]. now left.
    + destruct (a_ret (within s h [])) as [r|] eqn:Er.
      * destruct IH as [(rs & -> & L & H)|[-> (i & d & E & H)]].
        -- left. exists (r :: rs). split; [reflexivity|]. split; [cbn [List.length]; congruence|]. intros [|i] d E; cbn [nth_error] in *; [|now apply H].
           injection E as <-. now exists h1, s, r.
        -- right. split; [reflexivity|]. now exists (S i), d.
      * right. split; [reflexivity|]. exists 0, (TRunning h1 s). split; [reflexivity|]. right. now exists h1, s.
Qed.
Lemma list_ext : forall A (l l' : list A), (forall i, nth_error l i = nth_error l' i) -> l = l'.
Proof.
  intros A. induction l as [|x l IH]; intros [|y l'] H; [reflexivity|specialize (H 0); discriminate H..|].
  pose proof (H 0) as H0. cbn [nth_error] in H0. injection H0 as ->. f_equal. apply IH. intros i. exact (H (S i)).
Qed.

Lemma all_progress : forall st M, allinv st M ->
  (exists rs, tm_ret st = Some rs /\ map snd rs = vals /\ NoDup (map fst rs) /\ Forall (fun r => length h0 <= fst r) rs) \/
  (tm_ret st = None /\ exists c r, tm_idle c = false /\ tm_step jobs st c = Some r).
Proof.
  intros st M (own & ms & _ & Lm & Lc & Lh & Hh & C). unfold tm_ret. pose proof (forall2_len _ _ _ _ _ HF) as Lv.
  destruct (results_spec (tm_mem st) (tm_calls st)) as [(rs & -> & L & H)|[-> (i & d & Ed & H)]].
  - left. exists rs. split; [reflexivity|].
    assert (K : forall i r, nth_error rs i = Some r -> exists v, nth_error vals i = Some v /\ snd r = v /\ length h0 <= fst r < length (tm_mem st) /\ own (fst r) = i).
    { intros i r Er. pose proof (nth_some_lt _ _ _ _ Er) as Li. destruct (some_at _ (tm_calls st) i _ eq_refl ltac:(lia)) as (d & Ed).
      destruct (H i d Ed) as (h1 & s & r' & -> & Ep & Er'). rewrite Er in Er'. injection Er' as <-.
      destruct (some_at _ jobs i _ eq_refl ltac:(lia)) as (j & Ej). destruct (val_at _ _ Ej) as (v & Ev). destruct (some_at _ ms i _ Lm ltac:(lia)) as (m & Em).
      exists v. split; [exact Ev|]. exact (ret_is _ _ _ _ _ _ _ _ _ (C _ _ _ _ _ Ej Ev Ed Em) Ep). }
    split; [|split].
    + apply list_ext. intros i. rewrite nth_error_map. destruct (nth_error rs i) as [r|] eqn:Er.
      * destruct (K i r Er) as (v & -> & <- & _). reflexivity.
      * cbn [option_map]. symmetry. apply nth_error_None. apply nth_error_None in Er. lia.
    + apply NoDup_nth_error. rewrite map_length. intros i k Li E. rewrite !nth_error_map in E.
      destruct (some_at _ rs i _ eq_refl Li) as (r & Er). rewrite Er in E. cbn [option_map] in E.
      destruct (nth_error rs k) as [r'|] eqn:Er'; [|discriminate E]. injection E as E.
      destruct (K _ _ Er) as (_ & _ & _ & _ & O1). destruct (K _ _ Er') as (_ & _ & _ & _ & O2). congruence.
    + apply Forall_forall. intros r Ir. apply In_nth_error in Ir. destruct Ir as [i Er]. destruct (K _ _ Er) as (_ & _ & _ & H1 & _). cbn beta. exact (proj1 H1).
  - right. split; [reflexivity|]. pose proof (nth_some_lt _ _ _ _ Ed) as Li.
    destruct (some_at _ jobs i _ eq_refl ltac:(lia)) as (j & Ej). destruct (val_at _ _ Ej) as (v & Ev). destruct (some_at _ ms i _ Lm ltac:(lia)) as (m & Em).
    destruct H as [->|(h1 & s & -> & Er)].
    + exists (TBegin i). cbn [tm_step]. rewrite Ej, Ed. eexists. split; reflexivity.
    + pose proof (C _ _ _ _ _ Ej Ev Ed Em) as Ci. cbn [cinv] in Ci. destruct Ci as (g & O0 & o & Ok & L1 & _ & I & Ho).
      change (a_ret (within s (tm_mem st) o) = None) in Er.
      destruct (w_prog h1 O0 j g Ok _ _ I) as [(w & Ew & _)|(_ & ch & r & Hc & Es)]; [congruence|].
      assert (Hq : outer ch = false) by (destruct ch; [reflexivity..|discriminate Hc|discriminate Hc]).
      rewrite (within_step _ _ _ _ _ _ _ Hq) in Es. exists (TDo i ch). cbn [tm_step tm_idle]. rewrite Ej, Ed, Hq.
      destruct (call_step j h1 (within s (tm_mem st) []) ch); [eexists; split; [exact Hc|reflexivity]|discriminate Es].
Qed.
End All.
