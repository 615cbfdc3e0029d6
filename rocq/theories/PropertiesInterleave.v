(** C128: the parallel provers under every schedule of their array accesses. Statements about
    InterleaveModel.v. *)
From Coq Require Import ZArith Bool List Lia.
From Verif Require Import GoBig Spec AccModel AccFacts AccProofs SliceModel SliceProofs PropertiesSlices
  InterleaveModel InterleaveProofs InterleaveFuns.
Import ListNotations.
Open Scope nat_scope.

(** ** vocabulary *)
(** a moment of a run that began with heap [h]: no goroutine has panicked, no two goroutines are about to
    race, no array of the caller has changed, no goroutine is about to write anything but an array made
    during the run or to read anything but such an array or the cells [R], and unless the program is
    finished some goroutine can go on *)
Definition safe {A} (R : nat -> nat -> Prop) (h : heap) (p : prog A) (h' : heap) : Prop :=
  ~ panicked p /\ ~ racing p /\
  (forall a, a < length h -> nth_error h' a = nth_error h a) /\
  (forall a i, In (Wr a i) (nexts p) -> length h <= a) /\
  (forall a i, In (Rd a i) (nexts p) -> R a i \/ length h <= a) /\
  ((exists x, p = PRet x) \/ exists w p' h'', step p w h' = Some (p', h'')).

(** whatever the schedule: every moment is safe, every result is as described, a result can still be
    reached, and no run goes on for ever *)
Definition always {A} (R : nat -> nat -> Prop) (p : prog A) (h : heap) (result : A -> heap -> Prop) : Prop :=
  (forall p' h', reaches p h p' h' ->
     safe R h p' h' /\ (forall x, p' = PRet x -> result x h') /\ exists x h'', reaches p' h' (PRet x) h'') /\
  forall run : nat -> prog A * heap, run 0 = (p, h) ->
    ~ forall n, exists w, step (fst (run n)) w (snd (run n)) = Some (run (S n)).

(** ** from [runs] to [always] *)
Lemma reaches_trans : forall A (p : prog A) h p1 h1 p2 h2, reaches p h p1 h1 -> reaches p1 h1 p2 h2 -> reaches p h p2 h2.
Proof. intros A p h p1 h1 p2 h2 H1 H2. induction H2; [exact H1|]. eapply rc_step; eassumption. Qed.
Lemma runs_finish : forall H0 P A (p : prog A) h O Q, runs H0 P p O Q -> sound H0 O h ->
  exists x h', reaches p h (PRet x) h'.
Proof.
  intros H0 P A p. induction (smaller_wf A p) as [p _ IH]. intros h O Q R S.
  destruct (runs_progress H0 P _ _ _ _ _ R S) as [[x ->]|(w & p' & h' & St)].
  - exists x, h. constructor.
  - destruct (step_runs H0 P _ _ _ _ _ _ _ _ St R S) as (O' & R' & S' & _).
    destruct (IH p' (ex_intro _ w (ex_intro _ h (ex_intro _ h' St))) h' O' Q R' S') as (x & h2 & Re).
    exists x, h2. eapply reaches_trans; [|exact Re]. eapply rc_step; [constructor|exact St].
Qed.
Lemma runs_always : forall R h A (p : prog A) Q (result : A -> heap -> Prop), runs h R p nothing Q ->
  (forall x O h', Q x O -> sound h O h' -> result x h') -> always R p h result.
Proof.
  intros R h A p Q result Hr HQ.
  assert (S0 : sound h nothing h) by (split; [auto|split; [auto|discriminate]]).
  split.
  - intros p' h' Re. destruct (reaches_runs h R _ _ _ _ _ _ _ Re Hr S0) as (O & R1 & S1). split; [|split].
    + pose proof S1 as (L & E & S). split; [eapply runs_not_panicked, R1|]. split; [eapply runs_quiet; eassumption|].
      split; [exact E|]. split; [|split].
      * intros a i H. apply (runs_nexts _ _ _ _ _ _ R1) in H. destruct (O a) eqn:Ea; [|congruence]. now apply (S a l).
      * intros a i H. apply (runs_nexts _ _ _ _ _ _ R1) in H. destruct H as [[H _]|H]; [now left|right].
        destruct (O a) eqn:Ea; [|congruence]. now apply (S a l).
      * eapply runs_progress; eassumption.
    + intros x ->. eapply HQ; [exact R1|exact S1].
    + eapply runs_finish; eassumption.
  - intros run E0 Hrun. assert (F : forall q, Acc smaller q -> forall n, fst (run n) <> q).
    { intros q Hq. induction Hq as [q _ IH]. intros n <-. destruct (Hrun n) as [w St].
      apply (IH (fst (run (S n)))) with (n := S n); [|reflexivity].
      exists w, (snd (run n)), (snd (run (S n))). rewrite St. now destruct (run (S n)). }
    exact (F _ (smaller_wf A _) 0 eq_refl).
Qed.

Lemma firstn_error : forall (c : list cell) ps o, (forall i v, nth_error ps i = Some v -> nth_error c (o + i) = Some (Some v)) ->
  firstn (length ps) (skipn o c) = map Some ps.
Proof.
  intros c ps o. revert c. induction o as [|o IH]; intros c H.
  - cbn [skipn Nat.add] in *. revert c H. induction ps as [|p ps IH]; intros c H; [reflexivity|].
    pose proof (H 0 p eq_refl) as E. destruct c as [|x c]; [discriminate|]. cbn in E. injection E as ->.
    cbn [length firstn map]. f_equal. apply IH. intros i v Ei. exact (H (S i) v Ei).
  - destruct c as [|x c].
    + destruct ps as [|p ps]; [reflexivity|]. pose proof (H 0 p eq_refl) as E. discriminate.
    + cbn [skipn]. apply IH. exact H.
Qed.
Lemma mine_fresh : forall h O h' ps r, sound h O h' -> mine O ps r -> fresh h h' r ps.
Proof.
  intros h O h' ps r (L & E & S) (c & Ec & B & Ln & C & V). destruct (S _ _ Ec) as [Lo Eh].
  assert (h_arr r < length h') by (apply nth_error_Some; congruence).
  assert (Ea : array h' (h_arr r) = c) by now apply array_error.
  split; [lia|]. split.
  - unfold wf. rewrite Ea. lia.
  - unfold view. rewrite Ea, Ln. now apply firstn_error.
Qed.
Lemma argument_shared : forall (R : nat -> nat -> Prop) h s vs, argument h s vs -> (forall a i, inside s a i -> R a i) -> shared h R s vs.
Proof.
  intros R h s vs ((L & B) & V & Lo) HR.
  assert (Lv : h_len s = length vs).
  { transitivity (length (view h s)); [|now rewrite V, map_length]. symmetry. apply view_length. now split. }
  split; [exact Lv|]. split; [exact L|]. intros i v Ei. assert (i < length vs) by (apply nth_error_Some; congruence).
  split; [apply HR; split; [reflexivity|lia]|]. unfold cell_at.
  assert (Ev : nth_error (view h s) i = Some (Some v)) by (rewrite V, nth_error_map, Ei; reflexivity).
  unfold view in Ev. rewrite <- (Nat.sub_0_r (h_len s)) in Ev.
  change (firstn (h_len s - 0) (skipn (h_off s) (array h (h_arr s)))) with
    (slice (skipn (h_off s) (array h (h_arr s))) 0 (h_len s)) in Ev.
  apply slice_error in Ev. cbn [Nat.add] in Ev.
  revert Ev. generalize (h_off s) (array h (h_arr s)). clear. intros o l. revert l.
  induction o as [|o IH]; intros [|x l] E; cbn [skipn Nat.add nth_error] in *; auto. now destruct i.
Qed.

(** ** C128 *)
(** the divide-and-conquer prover with goroutines *)
Theorem C128_parallel : forall grow N base h s vs, (0 < N)%Z -> (0 <= base < N)%Z ->
  argument h s vs -> Forall (fun x => 0 <= x)%Z vs -> vs <> [] ->
  exists ps, witnesses base N vs ps /\ forall limit,
    always (inside s) (ProveMembershipParallel_p grow N base s limit) h (fun r h' => fresh h h' r ps).
Proof.
  intros grow N base h s vs HN Hb Ha Hv Hne. exists (wit base N 1 vs). split; [apply wit_witnesses|]. intros limit.
  eapply runs_always.
  - apply good_parallel_p; [exact HN|exact Hv|now apply argument_shared| |now right].
    destruct vs; [congruence|cbn; lia].
  - intros r O h' M S. eapply mine_fresh; eassumption.
Qed.

(** the functions with a randomizer *)
Theorem C128_randomizer : forall grow N base r h s vs limit, (0 < N)%Z -> (0 <= r)%Z ->
  argument h s vs -> Forall (fun x => 0 <= x)%Z vs -> 4 <= length vs ->
  exists ps, length ps = length vs /\
    (forall i w, nth_error ps i = Some w ->
       w = (base ^ ((if limit <=? 0 then r else 1) * product (without i vs)) mod N)%Z) /\
    always (inside s) (ParallelWithRandomizer_p grow N base r s limit) h (fun x h' => fresh h h' x ps).
Proof.
  intros grow N base r h s vs limit HN Hr Ha Hv L4.
  exists (wit base N (if (limit <=? 0)%Z then r else 1%Z) vs). split; [apply wit_length|]. split.
  - intros i w H. now apply wit_nth in H.
  - eapply runs_always.
    + apply good_parallel_randomizer_p; [exact HN|exact Hr|exact Hv|now apply argument_shared|exact L4].
    + intros x O h' M S. eapply mine_fresh; eassumption.
Qed.

(** SetProductParallel, also with a negative limit *)
Theorem C128_product : forall h s vs limit, argument h s vs ->
  always (inside s) (SetProductParallel_p s limit) h (fun x _ => x = product vs).
Proof.
  intros h s vs limit Ha. assert (Sh : shared h (inside s) s vs) by now apply argument_shared.
  eapply runs_always.
  - unfold SetProductParallel_p. eapply runs_product_parallel; [exact Sh|]. rewrite (proj1 Sh). apply le_n.
  - intros x O h' E _. exact E.
Qed.

(** two callers at the same time, whose sets may overlap or be the same: the results are in different arrays *)
Theorem C128_two_callers : forall grow N1 N2 g1 g2 h s1 s2 vs1 vs2 limit1 limit2,
  (0 < N1)%Z -> (0 <= g1 < N1)%Z -> argument h s1 vs1 -> Forall (fun x => 0 <= x)%Z vs1 -> vs1 <> [] ->
  (0 < N2)%Z -> (0 <= g2 < N2)%Z -> argument h s2 vs2 -> Forall (fun x => 0 <= x)%Z vs2 -> vs2 <> [] ->
  exists ps1 ps2, witnesses g1 N1 vs1 ps1 /\ witnesses g2 N2 vs2 ps2 /\
    always (fun a i => inside s1 a i \/ inside s2 a i)
      (ppar (ProveMembershipParallel_p grow N1 g1 s1 limit1) (ProveMembershipParallel_p grow N2 g2 s2 limit2)) h
      (fun r h' => fresh h h' (fst r) ps1 /\ fresh h h' (snd r) ps2 /\ h_arr (fst r) <> h_arr (snd r)).
Proof.
  intros grow N1 N2 g1 g2 h s1 s2 vs1 vs2 limit1 limit2 HN1 Hb1 Ha1 Hv1 Hne1 HN2 Hb2 Ha2 Hv2 Hne2.
  exists (wit g1 N1 1 vs1), (wit g2 N2 1 vs2). split; [apply wit_witnesses|]. split; [apply wit_witnesses|].
  eapply runs_always.
  - eapply (runs_par h _ _ _ _ _ _ _ _ (fun r O => mine O (wit g1 N1 1 vs1) (fst r) /\ mine O (wit g2 N2 1 vs2) (snd r) /\
      h_arr (snd r) <> h_arr (fst r))).
    + apply good_parallel_p; [exact HN1|exact Hv1|apply argument_shared; [exact Ha1|auto]| |now right].
      destruct vs1; [congruence|cbn; lia].
    + apply good_parallel_p; [exact HN2|exact Hv2|apply argument_shared; [exact Ha2|auto]| |now right].
      destruct vs2; [congruence|cbn; lia].
    + intros x y O1 O2 O' M1 M2 W1 W2 A. cbn [fst snd]. split; [now apply (mine_within O1)|].
      split; [now apply (mine_within O2)|]. exact (apart_arr _ _ _ _ _ _ A M1 M2).
  - intros r O h' (M1 & M2 & Hn) S. split; [eapply mine_fresh; eassumption|]. split; [eapply mine_fresh; eassumption|congruence].
Qed.

(** ** cases *)
(** running for [n] steps: at step [n] the goroutine named by the bits of [n * m] if it can move, and the
    leftmost one that can otherwise *)
Fixpoint bits (k n : nat) : list bool := match k with O => [] | S k' => Nat.odd n :: bits k' (Nat.div2 n) end.
Fixpoint leftmost {A} (p : prog A) : list bool :=
  match p with
  | PPar p q _ => match p with PRet _ => false :: leftmost q | _ => true :: leftmost p end
  | _ => []
  end.
Fixpoint play {A} (n m : nat) (p : prog A) (h : heap) : prog A * heap :=
  match n with
  | O => (p, h)
  | S n' =>
      match step p (bits 6 (n * m)) h with
      | Some (p', h') => play n' m p' h'
      | None => match step p (leftmost p) h with Some (p', h') => play n' m p' h' | None => (p, h) end
      end
  end.
Lemma play_reaches : forall A n m (p : prog A) h, reaches p h (fst (play n m p h)) (snd (play n m p h)).
Proof.
  intros A n m. induction n as [|n IH]; intros p h; cbn [play]; [constructor|].
  destruct (step p (bits 6 (S n * m)) h) as [[p' h']|] eqn:E.
  - eapply reaches_trans; [eapply rc_step; [constructor|exact E]|apply IH].
  - destruct (step p (leftmost p) h) as [[p' h']|] eqn:E'; [|constructor].
    eapply reaches_trans; [eapply rc_step; [constructor|exact E']|apply IH].
Qed.

(** seven elements in the middle of an array, seven goroutines, three schedules: the arrays are made in
    different orders, the numbers are the same *)
Definition ten : heap := [map Some [77; 2; 3; 5; 7; 11; 13; 17; 78; 79]%Z].
Definition seven : hdr := Hdr 0 1 7 9.
Definition answer (c : prog hdr * heap) : option (list cell) :=
  match fst c with PRet r => Some (view (snd c) r) | _ => None end.
Example C128_case : argument ten seven [2; 3; 5; 7; 11; 13; 17]%Z /\
  let out m := play 400 m (ProveMembershipParallel_p double 101 3 seven 3) ten in
  answer (out 0) = Some (map Some [60; 17; 9; 6; 65; 17; 6]%Z) /\
  answer (out 5) = answer (out 0) /\ answer (out 11) = answer (out 0) /\
  snd (out 5) <> snd (out 0) /\ snd (out 11) <> snd (out 0).
Proof.
  split; [unfold argument, wf; cbn; repeat split; lia|].
  cbv zeta. repeat split; vm_compute; first [reflexivity|discriminate].
Qed.

(** what the theorems rule out: a goroutine appending to a sub-slice with spare capacity and one reading
    behind it race, and what is read depends on the schedule *)
Definition hazard : prog (hdr * Z) := ppar (pappend double (Hdr 0 1 2 9) [Some 1%Z]) (pgetz (Hdr 0 3 2 7) 0).
Example C128_race_seen : racing hazard /\
  (exists x h, reaches hazard ten (PRet (x, 5%Z)) h) /\ (exists x h, reaches hazard ten (PRet (x, 1%Z)) h).
Proof.
  split; [cbn; auto|].
  assert (St : forall A (p : prog A) h w p1 h1 p2 h2, step p w h = Some (p1, h1) -> reaches p1 h1 p2 h2 -> reaches p h p2 h2).
  { intros A p h w p1 h1 p2 h2 E R. eapply reaches_trans; [eapply rc_step; [constructor|exact E]|exact R]. }
  split.
  - eexists _, _. eapply (St _ _ _ [false]); [reflexivity|]. eapply (St _ _ _ [true]); [reflexivity|].
    eapply (St _ _ _ []); [reflexivity|]. constructor.
  - eexists _, _. eapply (St _ _ _ [true]); [reflexivity|]. eapply (St _ _ _ [false]); [reflexivity|].
    eapply (St _ _ _ []); [reflexivity|]. constructor.
Qed.

Print Assumptions C128_parallel.
Print Assumptions C128_randomizer.
Print Assumptions C128_product.
Print Assumptions C128_two_callers.
