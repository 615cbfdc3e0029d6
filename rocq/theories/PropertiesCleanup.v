(** Theorems for property C112: the parallel functions that use channels leave nothing running.

    Table.Compute (precompute.go:37-102), ComputeFromTableParallel (comfromtable.go:135-207) and
    ProveMembershipIterParallel (concurrent.go:323-475) start goroutines that wait on channels. A goroutine that is
    still blocked after the call has returned is never collected. *)
From Coq Require Import ZArith Bool Lia String Ascii List.
From Verif Require Import GoBig GoBigFacts AccModel AccFacts Spec ListUpd Sched TableModel TableProofs ParIterModel ParIterProofs PropertiesExp PropertiesParIter.
Import ListNotations.
Open Scope Z_scope.

(** ** Specification *)
Section Down.
Context {S C : Type}.
Variable step : S -> C -> option (outcome S).
Variable idle : C -> bool.
(** Whatever the scheduler does: no crash, a bounded number of steps that are not busy waiting, and as long as the state
    is not an [ended] one some goroutine can do such a step. An [ended] state is at rest: no goroutine can do anything. *)
Definition winds_down (ended : S -> Prop) (s0 : S) : Prop :=
  exists bound, forall sched st, run step (Ret s0) sched = Some st ->
    (work idle sched <= bound)%nat /\
    exists s, st = Ret s /\
      ((ended s /\ forall c, step s c = None) \/ (~ ended s /\ exists c st', idle c = false /\ step s c = Some st')).

Lemma winds_down_inv : forall (Inv ended : S -> Prop) (m : S -> nat) s0,
  Inv s0 ->
  (forall s c st, Inv s -> step s c = Some st ->
     exists s', st = Ret s' /\ Inv s' /\ (if idle c then (m s' <= m s)%nat else (m s' < m s)%nat)) ->
  (forall s, Inv s -> (ended s /\ forall c, step s c = None) \/ (~ ended s /\ exists c st', idle c = false /\ step s c = Some st')) ->
  winds_down ended s0.
Proof.
  intros Inv ended m s0 H0 Hstep Hprog. exists (m s0). intros sched.
  assert (R : forall sched s st, Inv s -> run step (Ret s) sched = Some st ->
            exists s', st = Ret s' /\ Inv s' /\ (work idle sched + m s' <= m s)%nat).
  { clear s0 H0 sched. induction sched as [|c sched IH]; intros s st HI Hr; cbn [run] in Hr.
    - injection Hr as <-. exists s. repeat split; auto.
    - destruct (step s c) as [st1|] eqn:E; [|discriminate].
      destruct (Hstep _ _ _ HI E) as (s1 & -> & HI1 & Hm).
      destruct (IH _ _ HI1 Hr) as (s' & -> & HI' & Hw). exists s'. split; [reflexivity|]. split; [assumption|].
      revert Hm. unfold work in *. cbn [filter]. destruct (idle c); intros Hm; cbn [negb]; [lia|]. cbn [length]. lia. }
  intros st Hr. destruct (R _ _ _ H0 Hr) as (s & -> & HI & Hw). split; [lia|]. exists s. split; [reflexivity|]. now apply Hprog.
Qed.
End Down.

(** the call has returned and every goroutine it has started has ended *)
Definition table_ended (v : Z) (s : tstate) : Prop :=
  ts_main s = MReturned v /\ ts_coll s = CExited /\ Forall (fun w => w = WExited) (ts_workers s).
Definition pretable_ended (v : Z) (s : cpstate) : Prop :=
  cp_ret s = Some v /\ Forall (fun g => g = None) (cp_gor s).
Definition worker_ended (x : X) : Prop := x_pc x = XDone /\ (exists ps, w_pc (x_w x) = MRet ps) /\ w_hp (x_w x) = HDone.
Definition iter_ended (proofs : list Z) (s : B) : Prop :=
  b_main s = PRet (map Some proofs) /\ b_coll s = KDone /\ Forall (fun g => g = IDone) (b_init s) /\ Forall worker_ended (b_workers s).

(** ** Table.Compute *)
Definition t_gone (s : tstate) : Prop := forall v, ts_main s = MReturned v -> ts_coll s = CExited.
Lemma t_gone_step : forall s c s', t_gone s -> t_step s c = Some (Ret s') -> t_gone s'.
Proof.
  intros s c s' G H v. unfold t_step in H. destruct c as [|w|w| | |w|w].
  - destruct (ts_main s) as [[|i]|] eqn:Em; try discriminate H. destruct (_ <? _)%nat; [|discriminate H]. injection H as <-. cbn. discriminate.
  - destruct (nth_error (ts_workers s) w) as [[| |]|]; try discriminate H. destruct (ts_in s); [discriminate H|].
    destruct (work_value _ _ _); try discriminate H. injection H as <-. exact (G v).
  - destruct (nth_error (ts_workers s) w) as [[| |]|]; try discriminate H. destruct (_ <? _)%nat; [|discriminate H]. injection H as <-. exact (G v).
  - destruct (ts_coll s) eqn:Ec; try discriminate H. destruct (ts_out s); [discriminate H|]. destruct (go_mod _ _); try discriminate H.
    injection H as <-. cbn. intros Hv. specialize (G v Hv). congruence.
  - destruct (ts_main s) as [[|i]|]; try discriminate H. destruct (ts_coll s); try discriminate H. injection H as <-. reflexivity.
  - destruct (nth_error (ts_workers s) w) as [[| |]|]; try discriminate H. destruct (ts_in s); [|discriminate H].
    destruct (ts_main s) eqn:Em; try discriminate H. injection H as <-. rewrite Em. discriminate.
  - destruct (nth_error (ts_workers s) w) as [[| |]|]; try discriminate H. destruct (ts_main s); try discriminate H. injection H as <-. exact (G v).
Qed.
Lemma exited_dec : forall ws, nsum wpend ws = 0%nat -> Forall (fun w => w = WExited) ws \/ exists k, nth_error ws k = Some WLoop.
Proof.
  intros ws H. apply nsum_zero in H. induction H as [|w ws Hw _ IH]; [left; constructor|].
  destruct w as [|v|]; [right; now exists 0%nat|discriminate Hw|].
  destruct IH as [IH|[k IH]]; [left; now constructor|right; now exists (S k)].
Qed.

Theorem C112_table : forall g n bound numElements byteChunkSize t x numRoutine, 1 < n ->
  NewTable g n bound numElements byteChunkSize = Ret t ->
  0 < x < 2 ^ (8 * Z.of_nat byteChunkSize *
               (bit_len bound * Z.of_nat numElements / (8 * Z.of_nat byteChunkSize))) ->
  (1 <= numRoutine)%nat ->
  winds_down t_step t_idle (table_ended (g ^ x mod n)) (t_init t x numRoutine).
Proof.
  intros g n bound num c t x R Hn E [Hx Hb] HR. destruct (NewTable_ok g n bound num c t ltac:(lia) E) as (Hok & Ec & El).
  set (bs := list_ascii_of_string (big_bytes x)).
  assert (Hlen : (length bs <= t_chunk t * length (t_table t))%nat).
  { apply big_bytes_length. rewrite Z.abs_eq by lia. change 256 with (2 ^ 8). rewrite <- Z.pow_mul_r by lia.
    rewrite Nat2Z.inj_mul, Z.mul_assoc. rewrite Ec, El, Z2Nat.id; [exact Hb|].
    destruct (Nat.eq_dec c 0) as [->|Hc]; [rewrite Z.mul_0_r, Zdiv_0_r; lia|].
    apply Z.div_pos; [|lia]. apply Z.mul_nonneg_nonneg; [apply bit_len_nonneg|lia]. }
  assert (Ev : bval bs = x) by (unfold bs; rewrite big_bytes_bval; lia).
  apply (winds_down_inv _ _ (fun s => t_inv g n t bs R s /\ t_gone s) _ t_measure).
  - split; [now apply t_init_inv|]. intros v H. discriminate H.
  - intros s ch st [HI G] H. destruct (t_inv_step g n t bs R Hn Hok Hlen s ch st HI H) as (s' & -> & HI' & Hm).
    exists s'. split; [reflexivity|]. split; [|exact Hm]. split; [exact HI'|]. exact (t_gone_step _ _ _ G H).
  - intros s [HI G]. destruct (t_inv_progress g n t bs R s HR HI) as [(v & Hv & Ev')|(Hv & ch & st & Hi & Hs)].
    + unfold t_ret in Hv. destruct (ts_main s) as [|v'] eqn:Em; [discriminate Hv|]. injection Hv as ->. specialize (G v Em).
      destruct HI as (_ & _ & _ & _ & _ & HI & _). rewrite Em in HI. destruct HI as (I1 & I2 & I3 & _).
      destruct (exited_dec _ I2) as [F|[k Hk]].
      * left. split; [split; [|split; assumption]; rewrite Em, Ev', Ev; reflexivity|].
        assert (Z : forall w z, nth_error (ts_workers s) w = Some z -> z = WExited) by (intros w z Hz; exact (proj1 (Forall_forall _ _) F z (nth_error_In _ _ Hz))).
        intros [|w|w| | |w|w]; unfold t_step; rewrite ?Em, ?G; try reflexivity;
          (destruct (nth_error (ts_workers s) w) as [z|] eqn:Ew; [rewrite (Z w z Ew)|]; reflexivity).
      * right. split.
        -- intros (_ & _ & F). pose proof (proj1 (Forall_forall _ _) F WLoop (nth_error_In _ _ Hk)). discriminate.
        -- exists (TExit k). eexists. split; [reflexivity|]. unfold t_step. rewrite Hk, Em. reflexivity.
    + right. split; [|now exists ch, st]. intros (Hm & _). unfold t_ret in Hv. rewrite Hm in Hv. discriminate.
Qed.

(** ** ComputeFromTableParallel *)
Theorem C112_pretable : forall base N bitLen tableSize t x, 1 < N ->
  GenPreTable base N bitLen tableSize = Ret t -> 0 < x ->
  exists s0, cp_init t x N = Ret s0 /\ winds_down cp_step (fun _ => false) (pretable_ended (base ^ x mod N)) s0.
Proof.
  intros base N bitLen ts t x HN E Hx. pose proof (GenPreTable_ok base N bitLen ts t ltac:(lia) E) as Hok.
  destruct (cp_init_inv base N t x HN Hok Hx) as (s0 & E0 & HI). exists s0. split; [assumption|].
  apply (winds_down_inv _ _ (cp_inv N (base ^ x)) _ cp_measure); [exact HI|intros s c st I H; exact (cp_inv_step N (base ^ x) HN s c st I H)|].
  intros s I. destruct (cp_inv_progress N (base ^ x) s I) as [(v & Hv & Ev)|(Hv & c & st & Hc)].
  - left. destruct I as (E1 & E2 & Hp & Hc & Hb & Hret). rewrite Hv in Hret. destruct Hret as [Er Hi].
    assert (Hch : cp_chan s = []) by (destruct (cp_chan s); [reflexivity|cbn [length] in Hc; lia]).
    assert (Hg : nsum gpend (cp_gor s) = 0%nat) by lia. apply nsum_zero in Hg.
    assert (F : Forall (fun g => g = None) (cp_gor s)) by (eapply Forall_impl; [|exact Hg]; intros [p|]; [discriminate|reflexivity]).
    split; [split; [rewrite Hv, Ev; reflexivity|exact F]|].
    intros [k|]; unfold cp_step; [|rewrite Hv; reflexivity].
    destruct (nth_error (cp_gor s) k) as [o|] eqn:Ek; [|reflexivity]. rewrite (proj1 (Forall_forall _ _) F o (nth_error_In _ _ Ek)). reflexivity.
  - right. split; [intros [H _]; congruence|]. exists c, st. auto.
Qed.

(** ** ProveMembershipIterParallel *)
Definition x_gone (x : X) : Prop := x_pc x = XRun \/ exists ps, w_pc (x_w x) = MRet ps.
Lemma w_ret_stays : forall N set w c w' ps, w_pc w = MRet ps -> wstep N set w c = Some (Ret w') -> w_pc w' = MRet ps.
Proof.
  intros N set w c w' ps Hp H. unfold wstep in H. destruct c; rewrite ?Hp in H.
  - discriminate H.
  - destruct (w_hp w); try discriminate H. destruct (deref (w_iter w)) as [i| |]; try discriminate H. cbn [bind] in H.
    destruct (deref (nth_error (w_nodes w) i)) as [it| |]; try discriminate H. cbn [bind] in H. destruct (go_slice _ _ _); try discriminate H.
    injection H as <-. reflexivity.
  - destruct (w_hp w); discriminate H.
  - destruct (w_hp w); discriminate H.
  - destruct (w_hp w); try discriminate H. destruct (w_cancelled w); try discriminate H. injection H as <-. reflexivity.
Qed.
Lemma Forall_upd : forall A (P : A -> Prop) l k a, Forall P l -> P a -> Forall P (upd l k a).
Proof.
  intros A P l k a F. revert k. induction F as [|x l Hx F IH]; intros k Ha; [destruct k; constructor|].
  destruct k as [|k]; cbn [upd]; constructor; auto.
Qed.
Lemma b_gone_step : forall N set nw pow s c s', Forall x_gone (b_workers s) -> bstep N set nw pow s c = Some (Ret s') -> Forall x_gone (b_workers s').
Proof.
  intros N set nw pow s c s' F H. unfold bstep in H. destruct c as [k| |k c|k|k| |].
  - destruct (nth_error (b_init s) k) as [g|]; [|discriminate H]. unfold istep in H.
    destruct g; repeat match type of H with
      | context [if ?b then _ else _] => destruct b
      | context [match ?o with Ret _ => _ | Panic => _ | OutOfFuel => _ end] => destruct o
      | context [bind ?o _] => destruct o; cbn [bind] in H
      end; try discriminate H; injection H as <-; exact F.
  - destruct (b_main s); try discriminate H.
    + destruct (b_chan s); [destruct (b_closed s); [|discriminate H]|]; injection H as <-; exact F.
    + injection H as <-. cbn [b_workers]. apply Forall_app. split; [exact F|]. constructor; [now left|constructor].
    + destruct (_ =? _)%nat; [destruct (b_closed s); [discriminate H|]|]; injection H as <-; exact F.
    + injection H as <-. exact F.
  - destruct (nth_error (b_workers s) k) as [x|] eqn:Ek; [|discriminate H]. destruct (wstep N set (x_w x) c) as [[w| |]|] eqn:Ew; try discriminate H.
    injection H as <-. cbn [b_workers]. apply Forall_upd; [exact F|].
    destruct (proj1 (Forall_forall _ _) F x (nth_error_In _ _ Ek)) as [Hx|[ps Hx]]; [now left|right]. exists ps. exact (w_ret_stays _ _ _ _ _ _ Hx Ew).
  - destruct (nth_error (b_workers s) k) as [[x w [|ps|]]|] eqn:Ek; try discriminate H. destruct (wret w) as [ps|] eqn:Er; [|discriminate H].
    injection H as <-. cbn [b_workers]. apply Forall_upd; [exact F|]. right. cbn [x_w]. unfold wret in Er. destruct (w_pc w); try discriminate Er. eauto.
  - destruct (nth_error (b_workers s) k) as [[x w [|ps|]]|] eqn:Ek; try discriminate H. destruct (b_rclosed s); [discriminate H|].
    destruct (_ <? _)%nat; [|discriminate H]. injection H as <-. cbn [b_workers]. apply Forall_upd; [exact F|].
    destruct (proj1 (Forall_forall _ _) F _ (nth_error_In _ _ Ek)) as [Hx|Hx]; [discriminate Hx|right; exact Hx].
  - destruct (b_coll s); try discriminate H.
    + destruct (b_recv s) as [|[[l r] q] rest]; [destruct (b_rclosed s); [|discriminate H]|destruct (copy_into _ _ _ _); try discriminate H]; injection H as <-; exact F.
    + destruct (b_rclosed s); [discriminate H|]. injection H as <-. exact F.
  - destruct (b_main s); try discriminate H. destruct (b_coll s); try discriminate H. injection H as <-. exact F.
Qed.

Theorem C112_iter : forall cpus base N set s numWorkers pow, (1 <= cpus)%nat -> 0 < N -> 0 <= base < N -> Forall (fun x => 0 <= x) set ->
  ProveMembershipIterParallel cpus base N set = Ret (Goroutines N set numWorkers pow s) ->
  exists proofs, witnesses base N set proofs /\ winds_down (bstep N set numWorkers pow) (fun _ => false) (iter_ended proofs) s.
Proof.
  intros cpus base N set s nw pow Hc HN Hb Hs E. unfold ProveMembershipIterParallel in E.
  destruct (calNumWorkers_spec cpus Hc) as (k & Ek & _). rewrite Ek in E. cbn [bind] in E.
  destruct (Nat.leb_spec (length set) (2 ^ k * 2)) as [L|L]; [discriminate E|]. injection E as <- <- <-.
  assert (Hlen : (2 ^ k <= length set)%nat) by lia. exists (Wits base N set). split; [apply wit_witnesses|].
  apply (winds_down_inv _ _ (fun s => BInv base N set k s /\ Forall x_gone (b_workers s)) _ (bm set k)).
  - split; [now apply bstart_inv|constructor].
  - intros s c st [I G] H. destruct (bstep_inv base N set HN Hs Hb k Hlen s c st I H) as (s' & -> & I' & Hm).
    exists s'. split; [reflexivity|]. split; [|exact Hm]. split; [exact I'|]. exact (b_gone_step _ _ _ _ _ _ _ G H).
  - intros s [I G]. destruct (bprogress base N set Hb k Hlen s I) as [(v & Hv & Ev)|(Hv & c & st & Hs')].
    + unfold bret in Hv. destruct (b_main s) as [| | | | |ps] eqn:Em; try discriminate Hv. injection Hv as ->.
      destruct I as (I1 & I2 & I3 & I4 & I5 & I6 & I7). unfold main_ok in I5. rewrite Em in I5. destruct I5 as (_ & M1 & _ & M2).
      unfold coll_ok in I6. rewrite M2 in I6. destruct I6 as (_ & K).
      assert (FI : Forall (fun g => g = IDone) (b_init s)).
      { assert (Z : nsum (iw k) (b_init s) = 0%nat) by lia. apply nsum_zero in Z. eapply Forall_impl; [|exact Z]. intros g Hg.
        destruct g; try reflexivity; exfalso; revert Hg; apply Nat.neq_sym, Nat.lt_neq, (iw_pos set k Hlen); discriminate. }
      assert (FX : Forall (fun x => x_pc x = XDone /\ (exists ps, w_pc (x_w x) = MRet ps) /\ w_cancelled (x_w x) = true /\ (w_hp (x_w x) = HSelect \/ w_hp (x_w x) = HDone)) (b_workers s)).
      { assert (Z : nsum xw (b_workers s) = 0%nat) by lia. apply nsum_zero in Z. apply Forall_forall. intros x Hx.
        pose proof (proj1 (Forall_forall _ _) Z x Hx) as Zx. pose proof (proj1 (Forall_forall _ _) G x Hx) as Gx.
        destruct (proj1 (Forall_forall _ _) I3 x Hx) as (_ & Wx & _). unfold xw in Zx. destruct (x_pc x) eqn:Ep; try discriminate Zx.
        destruct Gx as [Gx|[q Gx]]; [congruence|]. unfold WInv in Wx. rewrite Gx in Wx. destruct Wx as (_ & W1 & W2). eauto. }
      assert (D : Forall worker_ended (b_workers s) \/ exists j x, nth_error (b_workers s) j = Some x /\ w_cancelled (x_w x) = true /\ w_hp (x_w x) = HSelect).
      { clear -FX. induction FX as [|x l Hx _ IH]; [left; constructor|]. destruct Hx as (H1 & H2 & H3 & [H4|H4]).
        - right. now exists 0%nat, x.
        - destruct IH as [IH|(j & y & Hj)]; [left; constructor; [|exact IH]; split; auto|right; now exists (S j), y]. }
      destruct D as [D|(j & x & Hj & Hcx & Hp)].
      * left. split; [split; [rewrite Em, Ev; reflexivity|split; [exact M2|split; assumption]]|].
        intros [i| |i c|i|i| |]; unfold bstep; rewrite ?Em, ?M2; try reflexivity.
        -- destruct (nth_error (b_init s) i) as [g|] eqn:Ei; [|reflexivity]. rewrite (proj1 (Forall_forall _ _) FI g (nth_error_In _ _ Ei)). reflexivity.
        -- destruct (nth_error (b_workers s) i) as [x|] eqn:Ei; [|reflexivity].
           destruct (proj1 (Forall_forall _ _) D x (nth_error_In _ _ Ei)) as (_ & [q Hq] & Hh). unfold wstep. rewrite Hq, Hh. destruct c; reflexivity.
        -- destruct (nth_error (b_workers s) i) as [[x w p]|] eqn:Ei; [|reflexivity].
           destruct (proj1 (Forall_forall _ _) D _ (nth_error_In _ _ Ei)) as (Hp & _). cbn in Hp. rewrite Hp. reflexivity.
        -- destruct (nth_error (b_workers s) i) as [[x w p]|] eqn:Ei; [|reflexivity].
           destruct (proj1 (Forall_forall _ _) D _ (nth_error_In _ _ Ei)) as (Hp & _). cbn in Hp. rewrite Hp. reflexivity.
      * right. split.
        -- intros (_ & _ & _ & F). destruct (proj1 (Forall_forall _ _) F x (nth_error_In _ _ Hj)) as (_ & _ & F'). congruence.
        -- exists (CWork j WDoneChan). eexists. split; [reflexivity|]. unfold bstep. rewrite Hj. unfold wstep. rewrite Hp, Hcx. reflexivity.
    + right. split; [|now exists c, st]. intros (Hm & _). unfold bret in Hv. rewrite Hm in Hv. discriminate.
Qed.

(** ** Concrete cases *)
(** the exponent 0: the workers wait for ever *)
Theorem C112_zero : forall t numRoutine v, ~ winds_down t_step t_idle (table_ended v) (t_init t 0 numRoutine).
Proof.
  intros t R v [b H]. destruct (C33_zero_hangs t R) as (sched & s & Hr & Hn & Hs). destruct (H _ _ Hr) as (_ & s' & E & [[(Hm & _) _]|(_ & c & st & Hi & Hc)]);
    injection E as <-; [unfold t_ret in Hn; rewrite Hm in Hn; discriminate Hn|]. destruct (Hs _ _ Hc). congruence.
Qed.
(** two workers: when the call returns both are still there; two more steps end them *)
Example C112_table_case : exists t s s', NewTable 3 1000003 255 6 2 = Ret t /\
  0 < 123456789012 < 2 ^ (8 * Z.of_nat 2 * (bit_len 255 * Z.of_nat 6 / (8 * Z.of_nat 2))) /\
  run t_step (Ret (t_init t 123456789012 2)) [TSpin 0; TFeed; TFeed; TTake 1; TTake 0; TFeed; TGive 0; TColl; TTake 0; TGive 1; TGive 0; TColl; TColl; TResult] = Some (Ret s) /\
  t_ret s <> None /\ ts_workers s = [WLoop; WLoop] /\
  run t_step (Ret s) [TExit 1; TExit 0] = Some (Ret s') /\ table_ended (powmod 3 123456789012 1000003) s'.
Proof.
  do 3 eexists. split; [vm_compute; reflexivity|]. split; [split; reflexivity|]. split; [vm_compute; reflexivity|].
  split; [vm_compute; discriminate|]. split; [vm_compute; reflexivity|]. split; [vm_compute; reflexivity|].
  unfold table_ended. repeat split; try (vm_compute; reflexivity). vm_compute. repeat constructor.
Qed.
(** two CPUs, five elements; always the first of these choices that is possible *)
Definition iter_choices : list bchoice :=
  CMain :: CColl :: CProof :: map CInit (seq 0 8) ++
  flat_map (fun k => [CWork k WMain; CWork k WHelper; CWork k WSendChan; CWork k WIterChan; CXRet k; CXSend k]) (seq 0 2) ++
  map (fun k => CWork k WDoneChan) (seq 0 2).
Fixpoint iter_sched (fuel : nat) (s : B) : list bchoice :=
  match fuel with
  | O => []
  | S fuel =>
      match find (fun c => match bstep 101 [2; 3; 5; 7; 11] 2 1 s c with Some (Ret _) => true | _ => false end) iter_choices with
      | Some c => match bstep 101 [2; 3; 5; 7; 11] 2 1 s c with Some (Ret s') => c :: iter_sched fuel s' | _ => [] end
      | None => []
      end
  end.
Example C112_iter_case : exists s s', ProveMembershipIterParallel 2 3 101 [2; 3; 5; 7; 11] = Ret (Goroutines 101 [2; 3; 5; 7; 11] 2 1 s) /\
  run (bstep 101 [2; 3; 5; 7; 11] 2 1) (Ret s) (iter_sched 200 s) = Some (Ret s') /\
  iter_ended [60; 17; 21; 6; 65] s' /\ length (b_init s') = 5%nat /\ length (b_workers s') = 2%nat.
Proof.
  do 2 eexists. split; [reflexivity|]. split; [vm_compute; reflexivity|]. split; [|split; reflexivity].
  unfold iter_ended. split; [reflexivity|]. split; [reflexivity|]. split; [repeat constructor|].
  repeat (constructor; [split; [reflexivity|split; [eexists; reflexivity|reflexivity]]|]). constructor.
Qed.
(** four goroutines; the last one does nothing after its send *)
Example C112_pretable_case : exists t s0 s, GenPreTable 3 1000003 20 4 = Ret t /\ cp_init t (2 ^ 19 + 77) 1000003 = Ret s0 /\
  run cp_step (Ret s0) [CPSend 2; CPSend 0; CPRecv; CPSend 3; CPSend 1; CPRecv; CPRecv; CPRecv] = Some (Ret s) /\
  pretable_ended (powmod 3 (2 ^ 19 + 77) 1000003) s.
Proof. do 3 eexists. do 3 (split; [vm_compute; reflexivity|]). split; [vm_compute; reflexivity|]. vm_compute. repeat constructor. Qed.

Print Assumptions C112_table. Print Assumptions C112_pretable. Print Assumptions C112_iter. Print Assumptions C112_zero.
