(** Fork-join goroutine trees.

    Model of the pattern used by SetProductParallel (common.go:170-220) and
    ProveMembershipParallel / proveMembershipWithChan (concurrent.go:48-98, 287-313): a goroutine
    either computes its value directly, or makes one unbuffered channel per child, starts the
    children, receives from the channels in order, combines the values and sends the result on its
    own channel (the root returns it instead). A goroutine that has its value is blocked in the send
    until its parent receives. A panic in any goroutine ends the whole program. *)
From Coq Require Import List Arith Lia.
From Verif Require Import GoBig.
Import ListNotations.

Section ForkJoin.
Context {task val : Type}.

(** what a goroutine does when it starts: finish, or fork and later combine *)
Inductive action :=
| Leaf (v : val)
| Fork (kids : list task) (k : list val -> val).

Variable expand : task -> outcome action.

Inductive gtree :=
| GRun (t : task)                                            (* started, not yet run *)
| GWait (k : list val -> val) (got : list val) (kids : list gtree) (* blocked receiving from the first kid *)
| GDone (v : val).                                           (* blocked sending v (root: returned v) *)

(** one step of the goroutine designated by [path] *)
Fixpoint gstep (g : gtree) (path : list nat) : option (outcome gtree) :=
  match path with
  | [] =>
      match g with
      | GRun t =>
          match expand t with
          | Ret (Leaf v) => Some (Ret (GDone v))
          | Ret (Fork ts k) => Some (Ret (GWait k [] (map GRun ts)))
          | Panic => Some Panic
          | OutOfFuel => Some OutOfFuel
          end
      | GWait k got [] => Some (Ret (GDone (k got)))
      | GWait k got (GDone v :: rest) => Some (Ret (GWait k (got ++ [v]) rest))
      | _ => None
      end
  | i :: p =>
      match g with
      | GWait k got kids =>
          match nth_error kids i with
          | Some kid =>
              match gstep kid p with
              | Some (Ret kid') => Some (Ret (GWait k got (firstn i kids ++ kid' :: skipn (S i) kids)))
              | Some Panic => Some Panic
              | Some OutOfFuel => Some OutOfFuel
              | None => None
              end
          | None => None
          end
      | _ => None
      end
  end.

(** run a schedule; [None] means that some step of it was not enabled *)
Fixpoint grun (g : outcome gtree) (sched : list (list nat)) : option (outcome gtree) :=
  match sched with
  | [] => Some g
  | p :: r =>
      match g with
      | Ret g' => match gstep g' p with Some g'' => grun g'' r | None => None end
      | _ => None
      end
  end.

(** [t] started as root always returns [v]: there is a number of steps that every schedule respects,
    no schedule reaches a panic, a state in which the root has not returned can always move on (no
    deadlock), and the value returned is [v] *)
Definition always_returns (t : task) (v : val) : Prop :=
  exists bound : nat, forall sched st, grun (Ret (GRun t)) sched = Some st ->
    length sched <= bound /\
    ( (st = Ret (GDone v) /\ length sched = bound)
      \/ (exists g p st', st = Ret g /\ (forall w, g <> GDone w) /\ gstep g p = Some st')).

(** some schedule of [t] crashes the program *)
Definition may_crash (t : task) : Prop :=
  exists sched, grun (Ret (GRun t)) sched = Some Panic.

(** some schedule of [t] returns [v] *)
Definition may_return (t : task) (v : val) : Prop :=
  exists sched, grun (Ret (GRun t)) sched = Some (Ret (GDone v)).

(** ** Proof: value and remaining number of steps are invariants *)
Inductive wf : gtree -> val -> nat -> Prop :=
| wf_done v : wf (GDone v) v 0
| wf_leaf t v : expand t = Ret (Leaf v) -> wf (GRun t) v 1
| wf_fork t ts k vs n : expand t = Ret (Fork ts k) -> wfl (map GRun ts) vs n ->
    wf (GRun t) (k vs) (S (S n))
| wf_wait k got kids vs n : wfl kids vs n -> wf (GWait k got kids) (k (got ++ vs)) (S n)
with wfl : list gtree -> list val -> nat -> Prop :=
| wfl_nil : wfl [] [] 0
| wfl_cons g gs v vs n m : wf g v n -> wfl gs vs m -> wfl (g :: gs) (v :: vs) (S n + m).

Lemma wf_wait_inv : forall k got kids v n, wf (GWait k got kids) v n ->
  exists vs m, v = k (got ++ vs) /\ n = S m /\ wfl kids vs m.
Proof. intros k got kids v n H. inversion H; subst. eauto. Qed.
Lemma wfl_cons_inv : forall g gs vs n, wfl (g :: gs) vs n ->
  exists v vs' n1 n2, vs = v :: vs' /\ n = S n1 + n2 /\ wf g v n1 /\ wfl gs vs' n2.
Proof. intros g gs vs n H. inversion H; subst. repeat eexists; eauto. Qed.
Lemma wf_GDone : forall w v n, wf (GDone w) v n -> v = w /\ n = 0.
Proof. intros w v n H. inversion H; subst; auto. Qed.

Lemma wfl_nth : forall kids vs n i kid, wfl kids vs n -> nth_error kids i = Some kid ->
  exists v m, wf kid v m /\
    forall kid' m', wf kid' v m' -> m' <= m ->
      wfl (firstn i kids ++ kid' :: skipn (S i) kids) vs (n - (m - m')) /\ m - m' <= n.
Proof.
  induction kids as [|g kids IH]; intros vs n i kid H Hi; [destruct i; discriminate|].
  apply wfl_cons_inv in H. destruct H as (v & vs' & n0 & m & -> & -> & H4 & H5).
  destruct i; cbn [nth_error] in Hi.
  - injection Hi as <-. exists v, n0. split; [assumption|]. intros kid' m' Hk Hle.
    split; [|lia]. cbn [firstn app]. replace (S n0 + m - (n0 - m')) with (S m' + m) by lia.
    change (skipn 1 (g :: kids)) with kids. now constructor.
  - destruct (IH _ _ _ _ H5 Hi) as (v' & m0 & Hw & Hupd). exists v', m0. split; [assumption|].
    intros kid' m' Hk Hle. destruct (Hupd kid' m' Hk Hle) as [HA HB]. split; [|lia].
    change (firstn (S i) (g :: kids)) with (g :: firstn i kids).
    change (skipn (S (S i)) (g :: kids)) with (skipn (S i) kids).
    cbn [app]. replace (S n0 + m - (m0 - m')) with (S n0 + (m - (m0 - m'))) by lia.
    now constructor.
Qed.

Lemma wf_step : forall path g v n o, wf g v n -> gstep g path = Some o ->
  exists g' n', o = Ret g' /\ n = S n' /\ wf g' v n'.
Proof.
  induction path as [|i path IH]; intros g v n o Hw Hs.
  - destruct g as [t|k got kids|w]; cbn [gstep] in Hs.
    + inversion Hw; subst.
      * rewrite H0 in Hs. injection Hs as <-. eexists _, _. split; [reflexivity|]. split; [reflexivity|]. constructor.
      * rewrite H0 in Hs. injection Hs as <-. eexists _, _. split; [reflexivity|]. split; [reflexivity|].
        apply (wf_wait k [] _ vs n0). assumption.
    + apply wf_wait_inv in Hw. destruct Hw as (vs & m & -> & -> & Hk).
      destruct kids as [|[|?|w] rest]; try discriminate.
      * injection Hs as <-. inversion Hk; subst. rewrite app_nil_r.
        eexists _, _. split; [reflexivity|]. split; [reflexivity|]. constructor.
      * injection Hs as <-. apply wfl_cons_inv in Hk.
        destruct Hk as (v & vs' & n1 & n2 & -> & -> & Hd & Hr).
        apply wf_GDone in Hd. destruct Hd as [-> ->].
        eexists _, _. split; [reflexivity|]. split; [reflexivity|].
        replace (got ++ w :: vs') with ((got ++ [w]) ++ vs') by (rewrite <- app_assoc; reflexivity).
        constructor. assumption.
    + discriminate.
  - destruct g as [t|k got kids|w]; cbn [gstep] in Hs; try discriminate.
    apply wf_wait_inv in Hw. destruct Hw as (vs & n0 & -> & -> & Hw).
    destruct (nth_error kids i) as [kid|] eqn:Hi; [|discriminate].
    destruct (wfl_nth _ _ _ _ _ Hw Hi) as (v' & m & Hk & Hupd).
    destruct (gstep kid path) as [o'|] eqn:E; [|discriminate].
    destruct (IH _ _ _ _ Hk E) as (g' & n' & -> & -> & Hg').
    injection Hs as <-. destruct (Hupd g' n' Hg' ltac:(lia)) as [HA HB].
    eexists _, _. split; [reflexivity|].
    split; [|constructor; exact HA].
    replace (S n' - n') with 1 in * by lia.
    assert (n0 <> 0) by lia. lia.
Qed.

Lemma wf_progress : forall n g v, wf g v n -> (exists w, g = GDone w) \/ exists p o, gstep g p = Some o.
Proof.
  induction n as [n IH] using lt_wf_ind. intros g v H.
  destruct g as [t|k got kids|w]; [| |left; eauto].
  - right. exists []. cbn [gstep]. inversion H; subst; rewrite H1; eauto.
  - right. destruct kids as [|kid rest].
    + exists []. cbn [gstep]. eauto.
    + apply wf_wait_inv in H. destruct H as (vs & m & -> & -> & H4).
      apply wfl_cons_inv in H4. destruct H4 as (v0 & vs' & n1 & n2 & -> & -> & H3 & _).
      destruct (IH n1 ltac:(lia) kid v0 H3) as [[w ->]|(p & o & Hp)].
      * exists []. cbn [gstep]. eauto.
      * destruct (wf_step _ _ _ _ _ H3 Hp) as (g' & n' & -> & _).
        exists (0 :: p). cbn [gstep nth_error]. rewrite Hp. eauto.
Qed.

Lemma wf_zero : forall g v, wf g v 0 -> g = GDone v.
Proof. intros g v H. inversion H; subst; reflexivity. Qed.
Lemma wf_run : forall sched g v n st, wf g v n -> grun (Ret g) sched = Some st ->
  exists g' n', st = Ret g' /\ n = length sched + n' /\ wf g' v n'.
Proof.
  induction sched as [|p sched IH]; intros g v n st Hw Hr; cbn [grun] in Hr.
  - injection Hr as <-. eexists _, _. split; [reflexivity|]. split; [reflexivity|assumption].
  - destruct (gstep g p) as [o|] eqn:E; [|discriminate].
    destruct (wf_step _ _ _ _ _ Hw E) as (g' & n' & -> & -> & Hg').
    destruct (IH _ _ _ _ Hg' Hr) as (g'' & n'' & -> & -> & Hg'').
    eexists _, _. split; [reflexivity|]. split; [reflexivity|assumption].
Qed.

Lemma wf_always_returns : forall t v n, wf (GRun t) v n -> always_returns t v.
Proof.
  intros t v n H. exists n. intros sched st Hr.
  destruct (wf_run _ _ _ _ _ H Hr) as (g & n' & -> & -> & Hg).
  split; [lia|]. destruct (wf_progress _ _ _ Hg) as [[w ->]|(p & o & Hp)].
  - left. apply wf_GDone in Hg. destruct Hg as [-> ->]. split; [reflexivity|lia].
  - destruct g as [t'|k got kids|w]; [right|right|].
    + exists (GRun t'), p, o. repeat split; auto. congruence.
    + exists (GWait k got kids), p, o. repeat split; auto. congruence.
    + destruct p; discriminate.
Qed.

(** sufficient condition: a denotation compatible with [expand], on a set of good tasks *)
Lemma fork_join : forall (good : task -> Prop) (sem : task -> val) (size : task -> nat),
  (forall t, good t ->
     match expand t with
     | Ret (Leaf v) => v = sem t
     | Ret (Fork ts k) => Forall (fun t' => good t' /\ size t' < size t) ts /\ k (map sem ts) = sem t
     | _ => False
     end) ->
  forall t, good t -> always_returns t (sem t).
Proof.
  intros good sem size Hex t Ht.
  assert (W : forall s t, size t < s -> good t -> exists n, wf (GRun t) (sem t) n).
  { induction s; intros t' Hs Hg; [lia|].
    specialize (Hex t' Hg). destruct (expand t') as [[v|ts k]| |] eqn:E; try contradiction.
    - subst v. eexists. now apply wf_leaf.
    - destruct Hex as [Hts <-].
      assert (exists n, wfl (map GRun ts) (map sem ts) n) as [n Hn].
      { clear E k. induction Hts as [|u ts [Hu1 Hu2] Hts IHts]; [exists 0; constructor|].
        destruct IHts as [m Hm]. destruct (IHs u ltac:(lia) Hu1) as [n Hn].
        eexists. cbn [map]. now constructor; eauto. }
      eexists. eapply wf_fork; eauto. }
  destruct (W (S (size t)) t ltac:(lia) Ht) as [n Hn]. now apply wf_always_returns in Hn.
Qed.

(** a complete schedule exists: the call can actually return *)
Lemma wf_may_return : forall n g v, wf g v n -> exists sched, grun (Ret g) sched = Some (Ret (GDone v)).
Proof.
  induction n; intros g v H.
  - apply wf_zero in H. subst. exists []. reflexivity.
  - destruct (wf_progress _ _ _ H) as [[w ->]|(p & o & Hp)].
    + apply wf_GDone in H. destruct H; discriminate.
    + destruct (wf_step _ _ _ _ _ H Hp) as (g' & n' & -> & [= <-] & Hg').
      destruct (IHn _ _ Hg') as [sched Hsched]. exists (p :: sched). cbn [grun]. now rewrite Hp.
Qed.

Lemma always_returns_unique : forall t v w, always_returns t v -> may_return t w -> w = v.
Proof.
  intros t v w [b H] [sched Hs]. destruct (H _ _ Hs) as [_ [[E _]|(g & p & st & E & Hn & _)]].
  - congruence.
  - injection E as <-. now destruct (Hn w).
Qed.
Lemma always_returns_no_crash : forall t v, always_returns t v -> ~ may_crash t.
Proof.
  intros t v [b H] [sched Hs]. destruct (H _ _ Hs) as [_ [[E _]|(g & p & st & E & _)]]; discriminate.
Qed.
End ForkJoin.
Arguments action : clear implicits.
Arguments gtree : clear implicits.
