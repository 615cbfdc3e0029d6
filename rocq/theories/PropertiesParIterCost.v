(** Theorem for property C116: the work of ProveMembershipIterParallel, under every schedule. *)
From Coq Require Import ZArith Bool Lia List Arith ZifyNat.
From Verif Require Import GoBig GoBigFacts AccModel AccFacts IterModel ListUpd Sched ParIterModel ParIterProofs CostModel IterCostModel PropertiesCleanup PropertiesCost PropertiesIterCost.
Import ListNotations.
Local Open Scope nat_scope.

(** the budget of a segment of s representatives, and of one that is first split k times by initMembershipProofs *)
Definition seg (s : nat) : nat := Z.to_nat (split_cost s).
Fixpoint init_seg (k s : nat) : nat := match k with O => seg s | S k => s + init_seg k (s / 2) + init_seg k (s - s / 2) end.
Lemma seg_halves : forall s, 2 <= s -> s + seg (s / 2) + seg (s - s / 2) <= seg s.
Proof. intros s H. pose proof (split_cost_halves s H). unfold seg. pose proof (split_cost_nonneg (s / 2)). pose proof (split_cost_nonneg (s - s / 2)). pose proof (split_cost_nonneg s). lia. Qed.
Lemma init_seg_le : forall k s, 2 ^ k <= s -> init_seg k s <= seg s.
Proof.
  induction k as [|k IH]; intros s H; [apply le_n|]. cbn [init_seg]. assert (E : 2 ^ S k = 2 * 2 ^ k) by reflexivity. pose proof (Nat.pow_nonzero 2 k ltac:(lia)).
  pose proof (IH (s / 2) ltac:(lia)). pose proof (IH (s - s / 2) ltac:(lia)). pose proof (seg_halves s ltac:(lia)). lia.
Qed.
Lemma middle_left : forall l r, middle l r - l = (r - l) / 2.
Proof. intros. unfold middle. lia. Qed.
Lemma middle_right : forall l r, r - middle l r = (r - l) - (r - l) / 2.
Proof. intros. unfold middle. lia. Qed.

Section Work.
Variable N : Z.
Variable set : list Z.
Lemma part_len : forall l r part, go_slice set l r = Ret part -> length (part_ops set l r) = r - l.
Proof. intros l r part E. unfold part_ops. rewrite E, map_length. unfold go_slice in E. destruct ((l <=? r) && (r <=? length set)) eqn:C; [|discriminate E]. injection E as <-. apply andb_prop in C as [C1 C2]. apply Nat.leb_le in C1, C2. rewrite firstn_length, skipn_length. lia. Qed.
Lemma part_le : forall l r, length (part_ops set l r) <= r - l.
Proof. intros l r. destruct (go_slice set l r) as [p| |] eqn:E; [rewrite (part_len _ _ _ E); lia|unfold part_ops; rewrite E; cbn; lia..]. Qed.
Definition of_rep (o : op) : Prop := exists e, In e set /\ o = Exp e.
Lemma part_reps : forall l r, Forall of_rep (part_ops set l r).
Proof.
  intros l r. unfold part_ops, go_slice. destruct ((l <=? r) && (r <=? length set)); [|constructor]. apply Forall_forall. intros o H. apply in_map_iff in H as (e & <- & He). exists e. split; [|reflexivity].
  rewrite <- (firstn_skipn l set). apply in_or_app. right. rewrite <- (firstn_skipn (r - l) (skipn l set)). apply in_or_app. now left.
Qed.

(** ** proveMembershipIter and its helper *)
Definition wseg (nd : wnode) : nat := seg (wr nd - wl nd).
Definition credit (s : W) : nat :=
  match w_pc s, w_hp s with
  | MCompute _ l r, HSend _ => r - middle l r
  | MRecv _ l r _, HGot _ _ => middle l r - l
  | MRecv _ l r _, HSend _ => r - l
  | _, _ => 0
  end.
Definition quiet (s : W) : Prop := w_hp s = HSelect \/ w_hp s = HDone.
Definition busy (s : W) (l r : nat) : Prop := w_hp s = HGot (middle l r) r \/ exists v, w_hp s = HSend v.
Definition on (s : W) (i l r : nat) : Prop := 2 <= r - l /\ exists nd, nth_error (w_nodes s) i = Some nd /\ wl nd = l /\ wr nd = r.
Definition calm (s : W) : Prop :=
  match w_pc s with
  | MSend i l r => on s i l r /\ quiet s
  | MCompute i l r => on s i l r /\ busy s l r
  | MRecv i l r nw => on s i l r /\ busy s l r /\ wl nw = middle l r /\ wr nw = r
  | _ => quiet s
  end.
Definition wpot (s : W) : nat := nsum wseg (w_nodes s) - credit s.
Lemma on_pot : forall s i l r, on s i l r -> r - l <= nsum wseg (w_nodes s).
Proof. intros s i l r (H & nd & E & <- & <-). pose proof (nsum_ge _ wseg _ _ _ E) as G. unfold wseg in G at 1. pose proof (seg_halves _ H). lia. Qed.
Definition pays {A} (pot : A -> nat) (inv : A -> Prop) (cost : list op) (s : A) (st : outcome A) : Prop :=
  length cost <= pot s /\ match st with Ret s' => inv s' /\ length cost + pot s' <= pot s | _ => True end.
Lemma pays_free : forall A (pot : A -> nat) (inv : A -> Prop) s s', inv s' -> pot s' <= pot s -> pays pot inv [] s (Ret s').
Proof. intros. split; [cbn; lia|]. split; [assumption|cbn; lia]. Qed.
Lemma wpays : forall s c st, calm s -> wstep N set s c = Some st -> pays wpot calm (w_ops set s c) s st.
Proof.
  intros [nds it fl pc hp ca] c st C E. destruct c; cbn [wstep w_pc w_hp w_nodes w_iter w_flag w_cancelled w_ops] in *.
  - destruct pc as [| |i l r|i l r|i l r nw|ps|ps]; try discriminate E.
    + destruct fl; injection E as <-; apply pays_free; auto; cbn; lia.
    + destruct it as [i|]; injection E as <-; [|apply pays_free; [exact C|cbn; lia]].
      destruct (nth_error nds i) as [nd|] eqn:Hi; cbn [deref bind]; [|split; [cbn; lia|exact I]].
      destruct (Nat.leb_spec (wr nd - wl nd) 1); [apply pays_free; [exact C|cbn; lia]|]. apply pays_free; [|cbn; lia].
      split; [|exact C]. split; [lia|]. exists nd. auto.
    + injection E as <-. destruct C as [C1 C2]. pose proof (on_pot _ _ _ _ C1) as P. cbn [w_nodes] in P. destruct C1 as (D & nd & E1 & E2 & E3). cbn [w_nodes] in E1. rewrite E1. cbn [deref bind].
      pose proof (part_le l (middle l r)) as PL. pose proof (middle_left l r) as ML. pose proof (middle_right l r) as MR.
      split. { unfold wpot, credit. cbn [w_nodes w_pc w_hp]. destruct hp; lia. }
      destruct (go_slice set l (middle l r)) as [part| |] eqn:S; cbn [bind]; [|exact I..]. pose proof (part_len _ _ _ S) as PE. split.
      * cbn. split; [split; [exact D|exists nd; auto]|]. split; [exact C2|]. now split.
      * unfold wpot, credit. cbn [w_nodes w_pc w_hp]. destruct C2 as [C2|[v C2]]; cbn [w_hp] in C2; subst hp; lia.
    + destruct it as [i|]; injection E as <-; [|apply pays_free; [exact C|cbn; lia]].
      destruct (nth_error nds i) as [nd|] eqn:Hi; cbn [deref bind]; [|split; [cbn; lia|exact I]]. apply pays_free; [exact C|cbn; lia].
  - destruct hp as [|l r|v|]; try discriminate E. injection E as <-.
    assert (Q : exists i l0, (pc = MCompute i l0 r \/ exists nw, pc = MRecv i l0 r nw /\ wl nw = middle l0 r /\ wr nw = r) /\ on (MkW nds it fl pc (HGot l r) ca) i l0 r /\ l = middle l0 r).
    { unfold calm in C. cbn [w_pc] in C. destruct pc as [| |i l0 r0|i l0 r0|i l0 r0 nw|ps|ps]; unfold quiet in C; cbn [w_hp] in C; try (destruct C as [C|C]; discriminate C); try (destruct C as [_ [C|C]]; discriminate C).
      - destruct C as [C1 [C2|[v C2]]]; cbn [w_hp] in C2; [|discriminate C2]. injection C2 as -> ->. exists i, l0. split; [now left|]. split; [exact C1|reflexivity].
      - destruct C as (C1 & [C2|[v C2]] & C3 & C4); cbn [w_hp] in C2; [|discriminate C2]. injection C2 as -> ->. exists i, l0. split; [right; now exists nw|]. split; [exact C1|reflexivity]. }
    destruct Q as (i & l0 & Q1 & Q2 & ->). pose proof (on_pot _ _ _ _ Q2) as P. cbn [w_nodes] in P.
    pose proof (part_le (middle l0 r) r) as PL. pose proof (middle_left l0 r) as ML. pose proof (middle_right l0 r) as MR. destruct Q2 as (D & nd & E1 & E2 & E3). cbn [w_nodes] in E1.
    assert (DD : (r - l0) / 2 <= r - l0) by (apply Nat.div_le_upper_bound; lia).
    split. { unfold wpot, credit. cbn [w_nodes w_pc w_hp]. destruct Q1 as [->|(nw & -> & _)]; lia. }
    destruct it as [i'|]; cbn [deref bind]; [|exact I]. destruct (nth_error nds i') as [it'|]; cbn [deref bind]; [|exact I].
    destruct (go_slice set (middle l0 r) r) as [part| |] eqn:S; cbn [bind]; [|exact I..]. pose proof (part_len _ _ _ S) as PE.
    destruct Q1 as [->|(nw & -> & N1 & N2)]; (split; [cbn; split; [split; [exact D|exists nd; auto]|]; try split; try (right; now eexists); auto|]); unfold wpot, credit; cbn [w_nodes w_pc w_hp]; lia.
  - destruct pc as [| |i l r|i l r|i l r nw|ps|ps]; try discriminate E. destruct hp; try discriminate E. injection E as <-. apply pays_free; [|cbn; lia].
    destruct C as [C1 C2]. split; [exact C1|]. now left.
  - destruct pc as [| |i l r|i l r|i l r nw|ps|ps]; try discriminate E. destruct hp as [| |v|]; try discriminate E. injection E as <-.
    destruct C as (C1 & C2 & C3 & C4). destruct C1 as (D & nd & E1 & E2 & E3). cbn [w_nodes] in E1. apply pays_free; [now left|].
    unfold wpot, credit. cbn [w_nodes w_pc w_hp]. rewrite nsum_app. pose proof (nsum_upd _ wseg _ _ _ (WNode l (middle l r) v (Some (length nds))) E1) as U.
    unfold wseg in U at 2 4. cbn [wl wr] in U. rewrite E2, E3 in U. unfold nsum at 2. cbn [fold_right]. unfold wseg at 2. rewrite C3, C4.
    pose proof (seg_halves (r - l) D) as SH. rewrite <- middle_right, <- middle_left in SH. lia.
  - destruct hp; try discriminate E. destruct ca; try discriminate E. injection E as <-. apply pays_free.
    + unfold calm in *. cbn [w_pc] in *. destruct pc as [| |i l r|i l r|i l r nw|ps|ps]; try (now right); [split; [apply C|now right]|..].
      * destruct C as [_ [C|[v C]]]; discriminate C.
      * destruct C as [_ [[C|[v C]] _]]; discriminate C.
    + unfold wpot, credit. cbn [w_nodes w_pc w_hp]. destruct pc; lia.
Qed.
Lemma w_reps : forall s c, Forall of_rep (w_ops set s c).
Proof. intros s c. destruct c; cbn [w_ops]; try constructor; [destruct (w_pc s); try constructor; apply part_reps|destruct (w_hp s); try constructor; apply part_reps]. Qed.
Lemma wstart_calm : forall v l r, calm (wstart set v l r) /\ wpot (wstart set v l r) <= seg (r - l).
Proof. intros v l r. unfold wstart. destruct set; cbn; split; try (now left); try (now right); try lia. unfold wpot, credit, nsum, wseg. cbn [w_nodes w_pc fold_right wl wr]. lia. Qed.

(** ** the whole program *)
Variable numWorkers pow : nat.
Definition ipot (g : igo) : nat :=
  match g with
  | IStart _ l r d => if d <=? pow then init_seg (pow - d) (r - l) else 0
  | ISpawn _ l r d => if d <? pow then (r - middle l r) + init_seg (pow - d - 1) (middle l r - l) else r - middle l r
  | IHalf1 _ l r d => if d <? pow then (middle l r - l) + init_seg (pow - d - 1) (r - middle l r) else middle l r - l
  | IHalf2 _ l r d => if d <? pow then (r - middle l r) + init_seg (pow - d - 1) (middle l r - l) else r - middle l r
  | ISend x => seg (nr x - nl x)
  | IDone => 0
  end.
Definition npot (x : pn) : nat := seg (nr x - nl x).
Definition mpot (m : ppc) : nat := match m with PGot x _ => npot x | _ => 0 end.
Definition xpot (x : X) : nat := wpot (x_w x).
Definition bpot (s : B) : nat := nsum ipot (b_init s) + nsum npot (b_chan s) + mpot (b_main s) + nsum xpot (b_workers s).
Definition bcalm (s : B) : Prop := Forall (fun x => calm (x_w x)) (b_workers s).
Lemma nsum_nil' : forall A (f : A -> nat), nsum f [] = 0.
Proof. reflexivity. Qed.
Lemma nsum_one : forall A (f : A -> nat) a, nsum f [a] = f a.
Proof. intros. unfold nsum. cbn. lia. Qed.
Lemma bpays : forall s c st, bcalm s -> bstep N set numWorkers pow s c = Some st -> pays bpot bcalm (b_ops set s c) s st.
Proof.
  intros s c st C E. destruct c as [k| |k c|k|k| |]; cbn [bstep b_ops] in *.
  - destruct (nth_error (b_init s) k) as [g|] eqn:K; [|discriminate E].
    assert (U : forall g', nsum ipot (upd (b_init s) k g') + ipot g = nsum ipot (b_init s) + ipot g') by (intros; now apply nsum_upd).
    destruct g as [b l r d|b l r d|b l r d|b l r d|x|]; cbn [istep i_ops] in *; try discriminate E.
    + destruct (Nat.ltb_spec pow d); [injection E as <-; apply pays_free; [exact C|unfold bpot; cbn [b_init b_chan b_main b_workers]; rewrite app_nil_r; specialize (U IDone); cbn [ipot] in U; lia]|].
      destruct (Nat.eqb_spec d pow); injection E as <-; (apply pays_free; [exact C|]); unfold bpot; cbn [b_init b_chan b_main b_workers].
      * rewrite app_nil_r. specialize (U (ISend (PN l r b))). cbn [ipot nl nr] in U. destruct (Nat.leb_spec d pow); [|lia]. replace (pow - d) with 0 in U by lia. cbn [init_seg] in U. lia.
      * rewrite nsum_app, nsum_one. specialize (U (ISpawn b l r d)). cbn [ipot] in *. destruct (Nat.leb_spec d pow); [|lia]. destruct (Nat.ltb_spec d pow); [|lia].
        replace (pow - d) with (S (pow - d - 1)) in U at 1 by lia. cbn [init_seg] in U. rewrite <- middle_right, <- middle_left in U. pose proof (middle_left l r). pose proof (middle_right l r). assert ((r - l) / 2 <= r - l) by (apply Nat.div_le_upper_bound; lia). lia.
    + injection E as <-. apply pays_free; [exact C|]. unfold bpot; cbn [b_init b_chan b_main b_workers]. rewrite nsum_app, nsum_one. specialize (U IDone). cbn [ipot] in *. lia.
    + injection E as <-. pose proof (part_le l (middle l r)) as PL. pose proof (nsum_ge _ ipot _ _ _ K) as G. cbn [ipot] in G.
      split; [unfold bpot; destruct (d <? pow); lia|]. destruct (go_slice set l (middle l r)) as [part| |] eqn:S; cbn [bind]; [|exact I..]. rewrite (part_len _ _ _ S). split; [exact C|].
      unfold bpot; cbn [b_init b_chan b_main b_workers]. rewrite nsum_app, nsum_one. specialize (U IDone). cbn [ipot] in *.
      destruct (Nat.ltb_spec d pow), (Nat.leb_spec (d + 1) pow); try lia. replace (pow - (d + 1)) with (pow - d - 1) by lia. lia.
    + injection E as <-. pose proof (part_le (middle l r) r) as PL. pose proof (nsum_ge _ ipot _ _ _ K) as G. cbn [ipot] in G.
      split; [unfold bpot; destruct (d <? pow); lia|]. destruct (go_slice set (middle l r) r) as [part| |] eqn:S; cbn [bind]; [|exact I..]. rewrite (part_len _ _ _ S). split; [exact C|].
      unfold bpot; cbn [b_init b_chan b_main b_workers]. rewrite nsum_app, nsum_one. specialize (U IDone). cbn [ipot] in *.
      destruct (Nat.ltb_spec d pow), (Nat.leb_spec (d + 1) pow); try lia. replace (pow - (d + 1)) with (pow - d - 1) by lia. lia.
    + destruct (b_closed s); [injection E as <-; split; [cbn; lia|exact I]|]. destruct (length (b_chan s) <? numWorkers); [|discriminate E]. injection E as <-. apply pays_free; [exact C|].
      unfold bpot; cbn [b_init b_chan b_main b_workers]. rewrite nsum_app, nsum_one. specialize (U IDone). cbn [ipot] in U. unfold npot at 2. lia.
  - destruct (b_main s) as [cnt|x cnt|cnt| | |ps] eqn:M; try discriminate E.
    + destruct (b_chan s) as [|x rest] eqn:CH.
      * destruct (b_closed s); [|discriminate E]. injection E as <-. apply pays_free; [exact C|]. unfold bpot; cbn [b_init b_chan b_main b_workers]. rewrite M, CH. cbn [mpot]. lia.
      * injection E as <-. apply pays_free; [exact C|]. unfold bpot; cbn [b_init b_chan b_main b_workers]. rewrite M, CH. cbn [mpot]. rewrite nsum_cons. lia.
    + injection E as <-. destruct (wstart_calm (np x) (nl x) (nr x)) as [W1 W2]. apply pays_free.
      * unfold bcalm. cbn [b_workers]. apply Forall_app. split; [exact C|]. constructor; [exact W1|constructor].
      * unfold bpot; cbn [b_init b_chan b_main b_workers]. rewrite M, nsum_app, nsum_one. cbn [mpot]. unfold xpot at 2. cbn [x_w]. unfold npot. lia.
    + destruct (cnt =? numWorkers); [destruct (b_closed s)|]; injection E as <-; [split; [cbn; lia|exact I]|..]; (apply pays_free; [exact C|]); unfold bpot; cbn [b_init b_chan b_main b_workers]; rewrite M; cbn [mpot]; lia.
    + injection E as <-. apply pays_free; [exact C|]. unfold bpot; cbn [b_init b_chan b_main b_workers]. rewrite M. cbn [mpot]. lia.
  - destruct (nth_error (b_workers s) k) as [x|] eqn:K; [|discriminate E]. destruct (wstep N set (x_w x) c) as [o|] eqn:S; [|discriminate E]. injection E as <-.
    destruct (wpays _ _ _ (Forall_nth _ _ _ _ _ C K) S) as [P1 P2]. pose proof (nsum_ge _ xpot _ _ _ K) as G. unfold xpot in G at 1. split; [unfold bpot; lia|].
    destruct o as [w| |]; cbn [bind]; [|exact I..]. destruct P2 as [P2 P3]. split; [unfold bcalm; cbn [b_workers]; now apply Forall_upd|].
    unfold bpot; cbn [b_init b_chan b_main b_workers]. pose proof (nsum_upd _ xpot _ _ _ (MkX (x_nd x) w (x_pc x)) K) as U. unfold xpot in U at 2 4. cbn [x_w] in U. lia.
  - destruct (nth_error (b_workers s) k) as [[x w xp]|] eqn:K; [|discriminate E]. destruct xp; try discriminate E. destruct (wret w) as [ps|]; [|discriminate E]. injection E as <-.
    apply pays_free; [unfold bcalm; cbn [b_workers]; apply Forall_upd; [exact C|exact (Forall_nth _ _ _ _ _ C K)]|].
    unfold bpot; cbn [b_init b_chan b_main b_workers]. pose proof (nsum_upd _ xpot _ _ _ (MkX x w (XSend ps)) K) as U. unfold xpot in U at 2 4. cbn [x_w] in U. lia.
  - destruct (nth_error (b_workers s) k) as [[x w xp]|] eqn:K; [|discriminate E]. destruct xp as [|ps|]; try discriminate E. destruct (b_rclosed s); [injection E as <-; split; [cbn; lia|exact I]|].
    destruct (length (b_recv s) <? numWorkers); [|discriminate E]. injection E as <-.
    apply pays_free; [unfold bcalm; cbn [b_workers]; apply Forall_upd; [exact C|exact (Forall_nth _ _ _ _ _ C K)]|].
    unfold bpot; cbn [b_init b_chan b_main b_workers]. pose proof (nsum_upd _ xpot _ _ _ (MkX x w XDone) K) as U. unfold xpot in U at 2 4. cbn [x_w] in U. lia.
  - destruct (b_coll s) as [|cnt proofs|proofs|proofs|]; try discriminate E.
    + destruct (b_recv s) as [|[[l r] ps] rest]; [destruct (b_rclosed s); [|discriminate E]; injection E as <-; apply pays_free; [exact C|apply le_n]|].
      injection E as <-. destruct (copy_into proofs l r ps); cbn [bind]; [apply pays_free; [exact C|apply le_n]|split; [cbn; lia|exact I]..].
    + destruct (b_rclosed s); injection E as <-; [split; [cbn; lia|exact I]|apply pays_free; [exact C|apply le_n]].
  - destruct (b_main s) eqn:M; try discriminate E. destruct (b_coll s); try discriminate E. injection E as <-. apply pays_free; [exact C|]. unfold bpot; cbn [b_init b_chan b_main b_workers]. rewrite M. cbn [mpot]. lia.
Qed.
Lemma b_reps : forall s c, Forall of_rep (b_ops set s c).
Proof.
  intros s c. destruct c as [k| |k c|k|k| |]; cbn [b_ops]; try constructor.
  - destruct (nth_error (b_init s) k) as [g|]; [|constructor]. destruct g; cbn [i_ops]; try constructor; apply part_reps.
  - destruct (nth_error (b_workers s) k); [apply w_reps|constructor].
Qed.
Lemma b_total : forall sched s, bcalm s -> Forall of_rep (b_spent set (bstep N set numWorkers pow) (Ret s) sched) /\ length (b_spent set (bstep N set numWorkers pow) (Ret s) sched) <= bpot s.
Proof.
  induction sched as [|c sched IH]; intros s C; cbn [b_spent]; [split; [constructor|cbn; lia]|]. destruct (bstep N set numWorkers pow s c) as [st|] eqn:E; [|split; [constructor|cbn; lia]].
  destruct (bpays s c st C E) as [P1 P2]. destruct st as [s'| |]; [|destruct sched; cbn [b_spent]; rewrite app_nil_r; (split; [apply b_reps|exact P1])..].
  destruct P2 as [P2 P3]. destruct (IH s' P2) as [I1 I2]. rewrite app_length. split; [apply Forall_app; split; [apply b_reps|exact I1]|lia].
Qed.
End Work.

(** C116: however its goroutines are scheduled, and at every moment, ProveMembershipIterParallel has done no more than
    the n·⌈log2 n⌉ exponentiations of ProveMembershipIter, each with one of the representatives as its exponent. *)
Theorem C116_parallel : forall cpus base N set numWorkers pow s sched b, 1 <= cpus -> sized b set ->
  ProveMembershipIterParallel cpus base N set = Ret (Goroutines N set numWorkers pow s) ->
  let n := Z.of_nat (length set) in let ops := b_spent set (bstep N set numWorkers pow) (Ret s) sched in
  (forall o, In o ops -> exists e, In e set /\ o = Exp e) /\
  (total exps ops <= n * Z.log2_up n /\ total exp_bits ops <= b * n * Z.log2_up n)%Z.
Proof.
  intros cpus base N set numWorkers pow s sched b Hc Hs E n ops. unfold ProveMembershipIterParallel in E. destruct (calNumWorkers_spec cpus Hc) as (k & Ek & Hk). rewrite Ek in E. cbn [bind] in E.
  destruct (Nat.leb_spec (length set) (2 ^ k * 2)) as [Hl|Hl]; [discriminate E|]. injection E as <- <- <-.
  destruct (b_total N set (2 ^ k) k sched (bstart set base)) as [R T]; [constructor|]. fold ops in R, T.
  assert (P : bpot k (bstart set base) <= seg (length set)).
  { unfold bpot, bstart. cbn [b_init b_chan b_main b_workers mpot]. rewrite nsum_one. unfold nsum. cbn [fold_right ipot]. rewrite !Nat.sub_0_r. cbn [Nat.leb]. pose proof (init_seg_le k (length set) ltac:(lia)). lia. }
  assert (R' : forall o, In o ops -> exists e, In e set /\ o = Exp e) by (rewrite Forall_forall in R; exact R). split; [exact R'|].
  assert (X : total exps ops = Z.of_nat (length ops)).
  { clear - R'. clearbody ops. induction ops as [|o l IH]; [reflexivity|]. rewrite total_cons, IH by (intros; apply R'; now right). destruct (R' o (or_introl eq_refl)) as (e & _ & ->). cbn [exps length]. lia. }
  assert (Y : (Z.of_nat (length ops) <= n * Z.log2_up n)%Z). { unfold seg in P. pose proof (split_cost_nonneg (length set)) as Q. unfold split_cost in P, Q. fold n in P, Q. lia. }
  split; [lia|]. assert (W : (0 <= b)%Z) by (apply (sized_width b set); [destruct set; [cbn in Hl; lia|discriminate]|exact Hs]).
  assert (Z : (total exp_bits ops <= b * Z.of_nat (length ops))%Z).
  { clear - R' Hs W. clearbody ops. induction ops as [|o l IH]; [cbn; lia|]. rewrite total_cons. specialize (IH ltac:(intros; apply R'; now right)). destruct (R' o (or_introl eq_refl)) as (e & He & ->). cbn [exp_bits length].
    unfold sized in Hs. rewrite Forall_forall in Hs. pose proof (bit_len_small b e W (Hs e He)). lia. }
  clear - W Y Z. nia.
Qed.

(** two CPUs, five representatives, run to the end: the two goroutines of initMembershipProofs and the two workers
    with their helpers do twelve exponentiations, as many as ProveMembershipIter does *)
Example C116_parallel_case : exists s s', let set := [2; 3; 5; 7; 11]%Z in
  ProveMembershipIterParallel 2 3 101 set = Ret (Goroutines 101 set 2 1 s) /\
  run (bstep 101 set 2 1) (Ret s) (iter_sched 200 s) = Some (Ret s') /\ bret s' = Some (map Some [60; 17; 21; 6; 65]%Z) /\ sized 4 set /\
  let ops := b_spent set (bstep 101 set 2 1) (Ret s) (iter_sched 200 s) in
  (total exps ops, total exp_bits ops, total muls ops) = (12, 35, 0)%Z /\ total exps ops = total exps (snd (c_ProveMembershipIter (101%Z :: set) 3 0 (seq 1 5))).
Proof. do 2 eexists. cbv zeta. split; [reflexivity|]. split; [vm_compute; reflexivity|]. split; [reflexivity|]. split; [repeat constructor; discriminate|]. split; vm_compute; reflexivity. Qed.
Print Assumptions C116_parallel.
