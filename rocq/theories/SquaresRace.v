(** ThreeSquares once more, with the two steps of a turn of routineFindTS kept apart: the look at the context
    (three_square.go:48-50) and the reading of the argument (52-63). The argument is a pointer: commitForX
    takes the number from the pool and puts it back when it returns (zkaop.go:173-175, range_proof.go:213-218),
    so after ThreeSquares has returned its owner may be anyone. Only the value in the cell is modelled, and
    a turn reads it at once; a word-by-word reading is not modelled. *)
From Coq Require Import ZArith Bool List Lia.
From Verif Require Import GoBig GoBigFacts Sched ListUpd SquaresModel SquaresProofs.
Import ListNotations.
Open Scope Z_scope.

Inductive froutine :=
| FSelect (cnt : Z)      (* at the select, 48 *)
| FTurn (cnt : Z)        (* not cancelled when asked; about to read rt and nn, 52-63 *)
| FFind (x p : Z)        (* in the loop 64-67 *)
| FOffer (v : Int3)      (* at the non-blocking send, 68-73 *)
| FGone.
Record fstate := { f_cell : Z; f_rt : Z; f_R : nat; f_main : tsmain; f_rout : list froutine }.
Inductive fchoice :=
| FMain
| FR (k : nat) (draws : nat -> Z)
| FReuse (w : Z).        (* the next owner of the recycled number writes to it *)

Definition f_set_main (s : fstate) m := {| f_cell := f_cell s; f_rt := f_rt s; f_R := f_R s; f_main := m; f_rout := f_rout s |}.
Definition f_set_rout (s : fstate) r := {| f_cell := f_cell s; f_rt := f_rt s; f_R := f_R s; f_main := f_main s; f_rout := r |}.
Definition f_set_cell (s : fstate) w := {| f_cell := w; f_rt := f_rt s; f_R := f_R s; f_main := f_main s; f_rout := f_rout s |}.

(** three_square.go:26-31, n not negative *)
Definition f_start (n : Z) (R : nat) : fstate :=
  {| f_cell := n; f_rt := Z.shiftr (Z.sqrt n) 1; f_R := R; f_main := MSpawn 0; f_rout := [] |}.

Section Race.
Variable GCD : gaussian -> gaussian -> gaussian.
Variable is_prime : Z -> bool.

(** three_square.go:51-63 *)
Definition f_turn (nn rt step cnt : Z) : froutine :=
  let x := rt - cnt in
  if x <? 0 then FGone
  else
    let x := Z.shiftl x 1 in
    let p := nn - x * x in
    if p <? 2 then FGone
    else if (bitLenThreshold <? bit_len p) && negb (is_prime p) then FSelect (cnt + step)
    else FFind x p.

Definition f_step (s : fstate) (c : fchoice) : option (outcome fstate) :=
  match c with
  | FMain =>
      match f_main s with
      | MSpawn k =>
          if (k <? f_R s)%nat
          then Some (Ret (f_set_main (f_set_rout s (f_rout s ++ [FSelect (Z.of_nat k)])) (MSpawn (S k))))
          else Some (Ret (f_set_main s MWait))
      | MGot v => Some (Ret (f_set_main s (MRet v)))
      | MWait | MRet _ => None
      end
  | FReuse w => match f_main s with MRet _ => Some (Ret (f_set_cell s w)) | _ => None end
  | FR k draws =>
      match nth_error (f_rout s) k with
      | Some (FSelect cnt) =>
          match f_main s with
          | MRet _ => Some (Ret (f_set_rout s (upd (f_rout s) k FGone)))
          | _ => Some (Ret (f_set_rout s (upd (f_rout s) k (FTurn cnt))))
          end
      | Some (FTurn cnt) => Some (Ret (f_set_rout s (upd (f_rout s) k (f_turn (f_cell s) (f_rt s) (Z.of_nat (f_R s)) cnt))))
      | Some (FFind x p) =>
          let gcd := findTwoSquares GCD p draws in
          if isValidGaussianIntGCD gcd then
            match gcd with
            | Some (Re, Im) => Some (Ret (f_set_rout s (upd (f_rout s) k (FOffer (NewInt3 x Re Im)))))
            | None => None
            end
          else Some (Ret s)
      | Some (FOffer v) =>
          match f_main s with
          | MWait => Some (Ret (f_set_main (f_set_rout s (upd (f_rout s) k FGone)) (MGot v)))
          | _ => Some (Ret (f_set_rout s (upd (f_rout s) k FGone)))
          end
      | _ => None
      end
  end.
Definition f_ret (s : fstate) : option Int3 := match f_main s with MRet v => Some v | _ => None end.

(** ** the two machines return the same values *)
Definition absr (r : froutine) : routine :=
  match r with
  | FSelect c | FTurn c => RLoop c
  | FFind x p => RFind x p
  | FOffer v => ROffer v
  | FGone => RGone
  end.
Definition abs (s : fstate) : tsstate :=
  {| q_n := f_cell s; q_rt := f_rt s; q_R := f_R s; q_main := f_main s; q_rout := map absr (f_rout s) |}.

Lemma map_upd : forall A B (f : A -> B) l k a, map f (upd l k a) = upd (map f l) k (f a).
Proof. induction l as [|x l IH]; intros [|k] a; cbn; auto. now rewrite IH. Qed.
Lemma abs_turn : forall n rt R cnt, absr (f_turn n rt R cnt) = loop_turn is_prime n rt R cnt.
Proof. intros. unfold f_turn, loop_turn. destruct (_ <? 0); [reflexivity|]. cbv zeta. destruct (_ <? 2); [reflexivity|]. now destruct (_ && _). Qed.

Definition running (m : tsmain) : bool := match m with MRet _ => false | _ => true end.

(** a fine step is a coarse step or none *)
Lemma f_step_abs : forall s c st, running (f_main s) = true -> f_step s c = Some st ->
  exists s', st = Ret s' /\ f_cell s' = f_cell s /\
    (abs s' = abs s \/ exists c', ts_step GCD is_prime (abs s) c' = Some (Ret (abs s'))).
Proof.
  intros s c st Hrun H. destruct c as [|k draws|w]; cbn [f_step] in H.
  - destruct (f_main s) as [k| |v|v] eqn:Em; try discriminate.
    + destruct (k <? f_R s)%nat eqn:Ek; injection H as <-; eexists; (split; [reflexivity|]); (split; [reflexivity|]); right; exists QMain;
      cbn [ts_step abs q_main]; rewrite Em; cbn [abs q_R]; rewrite Ek; unfold abs; cbn [f_cell f_rt f_R f_main f_rout f_set_main f_set_rout q_set_main q_set_rout q_n q_rt q_R q_main q_rout].
      * now rewrite map_app.
      * reflexivity.
    + injection H as <-. eexists. split; [reflexivity|]. split; [reflexivity|]. right. exists QMain. cbn [ts_step abs q_main]. rewrite Em. reflexivity.
  - destruct (nth_error (f_rout s) k) as [r|] eqn:Ek; [|discriminate].
    assert (Ea : nth_error (map absr (f_rout s)) k = Some (absr r)) by (rewrite nth_error_map, Ek; reflexivity).
    destruct r as [cnt|cnt|x p|v|]; try discriminate.
    + assert (E : Some (Ret (f_set_rout s (upd (f_rout s) k (FTurn cnt)))) = Some st) by (destruct (f_main s); try discriminate; exact H).
      injection E as <-. eexists. split; [reflexivity|]. split; [reflexivity|]. left. unfold abs. cbn [f_cell f_rt f_R f_main f_rout f_set_rout].
      rewrite map_upd. cbn [absr]. now rewrite upd_same.
    + injection H as <-. eexists. split; [reflexivity|]. split; [reflexivity|]. right. exists (QR k draws).
      cbn [ts_step abs q_rout]. rewrite Ea. cbn [absr abs q_main q_n q_rt q_R].
      replace (abs (f_set_rout s (upd (f_rout s) k (f_turn (f_cell s) (f_rt s) (Z.of_nat (f_R s)) cnt)))) with
        (q_set_rout (abs s) (upd (map absr (f_rout s)) k (loop_turn is_prime (f_cell s) (f_rt s) (Z.of_nat (f_R s)) cnt))).
      2:{ unfold abs, q_set_rout. cbn [f_cell f_rt f_R f_main f_rout f_set_rout q_n q_rt q_R q_main]. now rewrite map_upd, abs_turn. }
      destruct (f_main s); try discriminate; reflexivity.
    + destruct (isValidGaussianIntGCD (findTwoSquares GCD p draws)) eqn:Ev.
      * destruct (findTwoSquares GCD p draws) as [[Re Im]|] eqn:Ef; [|discriminate]. injection H as <-. eexists. split; [reflexivity|]. split; [reflexivity|].
        right. exists (QR k draws). cbn [ts_step abs q_rout]. rewrite Ea. cbn [absr]. rewrite Ef, Ev.
        unfold abs, q_set_rout. cbn [f_cell f_rt f_R f_main f_rout f_set_rout q_n q_rt q_R q_main]. now rewrite map_upd.
      * injection H as <-. eexists. split; [reflexivity|]. split; [reflexivity|]. now left.
    + destruct (f_main s) eqn:Em; try discriminate; injection H as <-; eexists; (split; [reflexivity|]); (split; [reflexivity|]); right; exists (QR k draws);
      cbn [ts_step abs q_rout]; rewrite Ea; cbn [absr abs q_main]; rewrite Em;
      unfold abs, q_set_rout, q_set_main; cbn [f_cell f_rt f_R f_main f_rout f_set_rout f_set_main q_n q_rt q_R q_main q_rout]; rewrite map_upd; rewrite ?Em; reflexivity.
  - destruct (f_main s); discriminate.
Qed.
Lemma f_ret_stays : forall s c st v, f_main s = MRet v -> f_step s c = Some st -> exists s', st = Ret s' /\ f_main s' = MRet v.
Proof.
  intros s c st v Hm H. destruct c as [|k draws|w]; cbn [f_step] in H; rewrite ?Hm in H; try discriminate.
  - destruct (nth_error (f_rout s) k) as [[cnt|cnt|x p|u|]|]; try discriminate; try (injection H as <-; eexists; split; [reflexivity|exact Hm]).
    destruct (isValidGaussianIntGCD _); [|injection H as <-; eexists; split; [reflexivity|exact Hm]].
    destruct (findTwoSquares GCD p draws) as [[Re Im]|]; [|discriminate]. injection H as <-. eexists. split; [reflexivity|exact Hm].
  - injection H as <-. eexists. split; [reflexivity|exact Hm].
Qed.

Lemma run_snoc_inv : forall S C (step : S -> C -> option (outcome S)) l c s st,
  run step (Ret s) (l ++ [c]) = Some st -> exists s1, run step (Ret s) l = Some (Ret s1) /\ step s1 c = Some st.
Proof.
  intros S C step. induction l as [|a l IH]; intros c s st H; cbn [run app] in *.
  - destruct (step s c) as [st1|] eqn:E; [|discriminate]. injection H as ->. eauto.
  - destruct (step s a) as [[s1| |]|]; try discriminate; [apply IH; exact H| |]; destruct l; discriminate.
Qed.
Lemma run_snoc : forall S C (step : S -> C -> option (outcome S)) l c s s1 st,
  run step (Ret s) l = Some (Ret s1) -> step s1 c = Some st -> run step (Ret s) (l ++ [c]) = Some st.
Proof. intros S C step l c s s1 st H E. rewrite (run_app _ _ _ _ _ _ _ H). cbn [run]. now rewrite E. Qed.

(** until the call has returned the argument is unchanged and the coarse machine can follow; the value
    returned is one the coarse machine can return *)
Lemma f_run_abs : forall n R sched st, run f_step (Ret (f_start n R)) sched = Some st ->
  exists s, st = Ret s /\
    (running (f_main s) = true -> f_cell s = n /\ exists sched', run (ts_step GCD is_prime) (Ret (ts_start n R)) sched' = Some (Ret (abs s))) /\
    (forall v, f_main s = MRet v -> can_return (ts_step GCD is_prime) ts_ret (ts_start n R) v).
Proof.
  intros n R sched. induction sched as [|c sched IH] using rev_ind; intros st H.
  - cbn [run] in H. injection H as <-. exists (f_start n R). split; [reflexivity|]. split; [|discriminate].
    intros _. split; [reflexivity|]. exists []. reflexivity.
  - apply run_snoc_inv in H. destruct H as (s1 & H1 & H). destruct (IH _ H1) as (s1' & E & Hr & Hm). injection E as <-.
    destruct (running (f_main s1)) eqn:Er.
    + destruct (Hr eq_refl) as (Hc & sched' & Hs). destruct (f_step_abs _ _ _ Er H) as (s & -> & Hcell & Habs). exists s. split; [reflexivity|].
      assert (HC : exists sched'', run (ts_step GCD is_prime) (Ret (ts_start n R)) sched'' = Some (Ret (abs s))).
      { destruct Habs as [->|(c' & Hc')]; [eauto|]. exists (sched' ++ [c']). eapply run_snoc; eauto. }
      split; [intros _; split; [congruence|exact HC]|].
      intros v Hv. destruct HC as (sc & HC). exists sc, (abs s). split; [exact HC|]. unfold ts_ret. cbn [abs q_main]. now rewrite Hv.
    + destruct (f_main s1) as [| | |v] eqn:Em; try discriminate. destruct (f_ret_stays _ _ _ _ Em H) as (s & -> & Es). exists s. split; [reflexivity|].
      rewrite Es. split; [discriminate|]. intros w Hw. injection Hw as <-. now apply Hm.
Qed.

(** the other direction, with every routine that the coarse schedule does not touch left alone *)
Definition touches (j : nat) (c : tschoice) : bool := match c with QMain => false | QR k _ => (k =? j)%nat end.
Lemma nth_map_inv : forall (l : list froutine) k r, nth_error (map absr l) k = Some r -> exists fr, nth_error l k = Some fr /\ absr fr = r.
Proof.
  intros l k r H. rewrite nth_error_map in H. destruct (nth_error l k) as [fr|]; [|discriminate]. cbn in H. injection H as <-. eauto.
Qed.
Lemma abs_step_f : forall s c q', ts_step GCD is_prime (abs s) c = Some (Ret q') -> running (f_main s) = true ->
  exists sched s', run f_step (Ret s) sched = Some (Ret s') /\ abs s' = q' /\
    forall j, touches j c = false -> forall fr, nth_error (f_rout s) j = Some fr -> nth_error (f_rout s') j = Some fr.
Proof.
  intros s c q' H Hrun. destruct c as [|k draws]; cbn [ts_step] in H.
  - cbn [abs q_main q_R] in H. destruct (f_main s) as [k| |v|v] eqn:Em; try discriminate.
    + destruct (k <? f_R s)%nat eqn:Ek; injection H as <-.
      * exists [FMain]. eexists. cbn [run f_step]. rewrite Em, Ek. split; [reflexivity|]. split.
        { unfold abs, q_set_main, q_set_rout. cbn [f_cell f_rt f_R f_main f_rout f_set_rout f_set_main q_n q_rt q_R q_main q_rout]. now rewrite map_app. }
        { intros j _ fr Hj. cbn [f_rout f_set_main f_set_rout]. rewrite nth_error_app1; [exact Hj|now apply nth_some_lt in Hj]. }
      * exists [FMain]. eexists. cbn [run f_step]. rewrite Em, Ek. split; [reflexivity|]. split; [reflexivity|]. auto.
    + injection H as <-. exists [FMain]. eexists. cbn [run f_step]. rewrite Em. split; [reflexivity|]. split; [reflexivity|]. auto.
  - cbn [abs q_rout] in H. destruct (nth_error (map absr (f_rout s)) k) as [r|] eqn:Ea; [|discriminate].
    destruct (nth_map_inv _ _ _ Ea) as (fr & Ek & Er). assert (Hlen : (k < length (f_rout s))%nat) by (now apply nth_some_lt in Ek).
    assert (Other : forall a j, touches j (QR k draws) = false -> forall fr, nth_error (f_rout s) j = Some fr -> nth_error (upd (f_rout s) k a) j = Some fr).
    { intros a j Ht f Hj. cbn [touches] in Ht. apply Nat.eqb_neq in Ht. rewrite nth_upd_neq by congruence. exact Hj. }
    assert (UU : forall A (l : list A) i a b, upd (upd l i a) i b = upd l i b).
    { clear. induction l as [|x l IH]; intros [|i] a b; cbn; auto. now rewrite IH. }
    assert (Turn : forall s1 cnt, nth_error (f_rout s1) k = Some (FTurn cnt) ->
      f_step s1 (FR k draws) = Some (Ret (f_set_rout s1 (upd (f_rout s1) k (f_turn (f_cell s1) (f_rt s1) (Z.of_nat (f_R s1)) cnt))))).
    { intros s1 cnt E1. cbn [f_step]. now rewrite E1. }
    destruct r as [cnt|x p|v|]; try discriminate.
    + assert (E : q' = abs (f_set_rout s (upd (f_rout s) k (f_turn (f_cell s) (f_rt s) (Z.of_nat (f_R s)) cnt)))).
      { transitivity (q_set_rout (abs s) (upd (map absr (f_rout s)) k (loop_turn is_prime (f_cell s) (f_rt s) (Z.of_nat (f_R s)) cnt))).
        - cbn [abs q_main q_n q_rt q_R] in H. destruct (f_main s); try discriminate; injection H as <-; reflexivity.
        - unfold abs, q_set_rout. cbn [f_cell f_rt f_R f_main f_rout f_set_rout q_n q_rt q_R q_main]. now rewrite map_upd, abs_turn. }
      destruct fr as [c|c|x p|v|]; try discriminate; injection Er as ->.
      * exists [FR k draws; FR k draws]. eexists.
        assert (S1 : f_step s (FR k draws) = Some (Ret (f_set_rout s (upd (f_rout s) k (FTurn cnt))))).
        { cbn [f_step]. rewrite Ek. destruct (f_main s); try discriminate; reflexivity. }
        cbn [run]. rewrite S1. rewrite (Turn _ cnt). 2:{ cbn [f_set_rout f_rout]. now apply nth_upd_eq. }
        cbn [f_set_rout f_rout f_cell f_rt f_R f_main]. rewrite UU. split; [reflexivity|]. split; [symmetry; exact E|]. apply Other.
      * exists [FR k draws]. eexists. cbn [run]. rewrite (Turn _ cnt Ek). split; [reflexivity|]. split; [symmetry; exact E|]. apply Other.
    + destruct fr as [c|c|x' p'|v|]; try discriminate; injection Er as -> ->. exists [FR k draws]. cbn [run f_step]. rewrite Ek.
      destruct (isValidGaussianIntGCD (findTwoSquares GCD p draws)).
      * destruct (findTwoSquares GCD p draws) as [[Re Im]|]; [|discriminate]. injection H as <-. eexists. split; [reflexivity|].
        split; [|apply Other]. unfold abs, q_set_rout. cbn [f_cell f_rt f_R f_main f_rout f_set_rout q_n q_rt q_R q_main]. now rewrite map_upd.
      * injection H as <-. eexists. split; [reflexivity|]. auto.
    + destruct fr as [c|c|x' p'|v'|]; try discriminate; injection Er as ->. exists [FR k draws]. cbn [run f_step]. rewrite Ek. cbn [abs q_main] in H.
      destruct (f_main s) eqn:Em; try discriminate; injection H as <-; eexists; (split; [reflexivity|]); (split; [|apply Other]);
      unfold abs, q_set_rout, q_set_main; cbn [f_cell f_rt f_R f_main f_rout f_set_rout f_set_main q_n q_rt q_R q_main q_rout]; rewrite map_upd; rewrite ?Em; reflexivity.
Qed.
Lemma ts_step_not_running : forall q c q', ts_step GCD is_prime q c = Some (Ret q') -> running (q_main q) = false -> q_main q' = q_main q.
Proof.
  intros q c q' H Hr. destruct (q_main q) as [| | |v] eqn:Em; try discriminate. destruct c as [|k draws]; cbn [ts_step] in H; rewrite Em in H; [discriminate|].
  destruct (nth_error (q_rout q) k) as [[cnt|x p|u|]|]; try discriminate; try (injection H as <-; exact Em).
  destruct (isValidGaussianIntGCD _); [|injection H as <-; exact Em]. destruct (findTwoSquares GCD p draws) as [[Re Im]|]; [|discriminate]. injection H as <-. exact Em.
Qed.
Lemma f_follow : forall sched s q' v, run (ts_step GCD is_prime) (Ret (abs s)) sched = Some (Ret q') -> q_main q' = MRet v ->
  running (f_main s) = true ->
  exists fsched s', run f_step (Ret s) fsched = Some (Ret s') /\ f_main s' = MRet v /\
    forall j, forallb (fun c => negb (touches j c)) sched = true -> forall fr, nth_error (f_rout s) j = Some fr -> nth_error (f_rout s') j = Some fr.
Proof.
  induction sched as [|c sched IH]; intros s q' v H Hv Hrun; cbn [run] in H.
  - injection H as <-. cbn [abs q_main] in Hv. rewrite Hv in Hrun. discriminate.
  - destruct (ts_step GCD is_prime (abs s) c) as [[q1| |]|] eqn:E; try discriminate; [|destruct sched; discriminate..].
    destruct (abs_step_f _ _ _ E Hrun) as (fs & s1 & Hf & <- & Hj). destruct (running (f_main s1)) eqn:Er1.
    + destruct (IH _ _ _ H Hv Er1) as (fs2 & s2 & Hf2 & Hm2 & Hj2). exists (fs ++ fs2), s2.
      split; [rewrite (run_app _ _ _ _ _ _ _ Hf); exact Hf2|]. split; [exact Hm2|].
      intros j Hall fr Hn. cbn [forallb] in Hall. apply andb_true_iff in Hall. destruct Hall as [H1 H2]. apply negb_true_iff in H1. eauto.
    + assert (Keep : forall sc q, run (ts_step GCD is_prime) (Ret q) sc = Some (Ret q') -> running (q_main q) = false -> q_main q' = q_main q).
      { induction sc as [|c' sc IHs]; intros q Hq Hnr; cbn [run] in Hq; [now injection Hq as <-|].
        destruct (ts_step GCD is_prime q c') as [[q2| |]|] eqn:E2; try discriminate; [|destruct sc; discriminate..].
        pose proof (ts_step_not_running _ _ _ E2 Hnr) as Em. rewrite <- Em. apply IHs; [exact Hq|now rewrite Em]. }
      pose proof (Keep _ _ H Er1) as Em. cbn [abs q_main] in Em. exists fs, s1. split; [exact Hf|]. split; [congruence|].
      intros j Hall fr Hn. cbn [forallb] in Hall. apply andb_true_iff in Hall. destruct Hall as [H1 _]. apply negb_true_iff in H1. eauto.
Qed.
Theorem f_same_values : forall n R v,
  can_return f_step f_ret (f_start n R) v <-> can_return (ts_step GCD is_prime) ts_ret (ts_start n R) v.
Proof.
  intros n R v. split.
  - intros (sched & s & Hr & Hv). destruct (f_run_abs n R _ _ Hr) as (s' & E & _ & Hm). injection E as <-. apply Hm.
    unfold f_ret in Hv. destruct (f_main s); try discriminate. now injection Hv as ->.
  - intros (sched & q & Hr & Hv). unfold ts_ret in Hv. destruct (q_main q) eqn:Em; try discriminate. injection Hv as ->.
    destruct (f_follow sched (f_start n R) q v Hr Em eq_refl) as (fs & s & Hf & Hm & _). exists fs, s. split; [exact Hf|]. unfold f_ret. now rewrite Hm.
Qed.

(** with two goroutines, one can be between its look at the context and its reading of the argument when
    the call returns *)
Lemma f_late_reader : forall n R v, (2 <= R)%nat -> can_return (ts_step GCD is_prime) ts_ret (ts_start n R) v ->
  exists j sched s, (j < R)%nat /\ run f_step (Ret (f_start n R)) sched = Some (Ret s) /\ f_ret s = Some v /\
    nth_error (f_rout s) j = Some (FTurn (Z.of_nat j)) /\ f_rt s = Z.shiftr (Z.sqrt n) 1.
Proof.
  intros n R v HR H. apply ts_can_return_iff in H. destruct H as (k & i & draws & Re & Imm & Hk & Hr & Hok & Hs & Ef & Ev & ->).
  set (cnt := Z.of_nat k + Z.of_nat i * Z.of_nat R) in *.
  set (rs := map (fun i => RLoop (Z.of_nat i)) (seq 0 R)). set (frs := map (fun i => FSelect (Z.of_nat i)) (seq 0 R)).
  set (j := if (k =? 0)%nat then 1%nat else 0%nat). assert (Hj : (j < R)%nat) by (unfold j; destruct (k =? 0)%nat; lia).
  assert (Hjk : k <> j) by (unfold j; destruct (Nat.eqb_spec k 0); lia).
  set (s0 := f_set_main (f_set_rout (f_start n R) frs) MWait).
  assert (Sp : run f_step (Ret (f_start n R)) (repeat FMain (S R)) = Some (Ret s0)).
  { assert (G : forall m, (m <= R)%nat -> run f_step (Ret (f_start n R)) (repeat FMain m) =
      Some (Ret (f_set_main (f_set_rout (f_start n R) (map (fun i => FSelect (Z.of_nat i)) (seq 0 m))) (MSpawn m)))).
    { induction m as [|m IHm]; intros Hm; [reflexivity|].
      replace (repeat FMain (S m)) with (repeat FMain m ++ [FMain]) by (now rewrite <- repeat_cons).
      eapply run_snoc; [apply IHm; lia|]. cbn [f_step f_main f_set_main f_R f_set_rout f_start f_rout].
      rewrite (proj2 (Nat.ltb_lt m R)) by lia. rewrite seq_S, map_app. reflexivity. }
    replace (repeat FMain (S R)) with (repeat FMain R ++ [FMain]) by (now rewrite <- repeat_cons).
    eapply run_snoc; [apply (G R (le_n _))|]. cbn [f_step f_main f_set_main f_R f_set_rout f_start]. now rewrite Nat.ltb_irrefl. }
  assert (Nj : nth_error frs j = Some (FSelect (Z.of_nat j))).
  { unfold frs. rewrite nth_error_map, (nth_error_nth' _ 0%nat) by (rewrite seq_length; lia). cbn [option_map]. now rewrite seq_nth. }
  assert (Lj : (j < length frs)%nat) by (now apply nth_some_lt in Nj).
  set (s1 := f_set_rout s0 (upd frs j (FTurn (Z.of_nat j)))).
  assert (S1 : run f_step (Ret s0) [FR j draws] = Some (Ret s1)).
  { cbn [run f_step s0 f_set_main f_set_rout f_rout f_main]. rewrite Nj. reflexivity. }
  assert (Ea : abs s1 = q_set_main (q_set_rout (ts_start n R) rs) MWait).
  { unfold abs, s1, s0, q_set_main, q_set_rout, ts_start, f_start. cbn [f_cell f_rt f_R f_main f_rout f_set_rout f_set_main q_n q_rt q_R q_main].
    rewrite map_upd. cbn [absr]. f_equal. unfold frs. rewrite map_map. cbn [absr]. fold rs. apply upd_same. unfold rs. now apply nth_seq_routines. }
  assert (Hrun : run (ts_step GCD is_prime) (Ret (abs s1)) (found_sched k i draws ++ [QR k draws; QMain]) =
    Some (Ret (q_set_main (q_set_rout (ts_start n R) (upd (upd rs k (ROffer (NewInt3 (cand_x n cnt) Re Imm))) k RGone)) (MRet (NewInt3 (cand_x n cnt) Re Imm))))).
  { rewrite Ea.
    rewrite (run_app _ _ _ _ _ _ _ (find_run GCD is_prime n R k i draws Re Imm rs MWait ltac:(discriminate) (nth_seq_routines R k Hk) Hr Hok Hs Ef Ev)).
    fold cnt. cbn [run ts_step q_rout q_set_main q_set_rout q_main ts_start].
    rewrite nth_upd_eq by (unfold rs; rewrite map_length, seq_length; assumption). cbn [q_main q_set_main]. reflexivity. }
  destruct (f_follow _ s1 _ (NewInt3 (cand_x n cnt) Re Imm) Hrun eq_refl eq_refl) as (fs & s & Hf & Hm & Hkeep).
  exists j, (repeat FMain (S R) ++ [FR j draws] ++ fs), s. split; [exact Hj|].
  assert (Full : run f_step (Ret (f_start n R)) (repeat FMain (S R) ++ [FR j draws] ++ fs) = Some (Ret s)).
  { rewrite (run_app _ _ _ _ _ _ _ Sp), (run_app _ _ _ _ _ _ _ S1). exact Hf. }
  split; [exact Full|]. split; [unfold f_ret; now rewrite Hm|]. split.
  - apply Hkeep.
    + apply forallb_forall. intros c Hc. apply negb_true_iff. unfold found_sched in Hc. rewrite !in_app_iff in Hc.
      assert (Hk' : (k =? j)%nat = false) by (now apply Nat.eqb_neq).
      destruct Hc as [[Hc|Hc]|Hc].
      * apply repeat_spec in Hc. subst c. exact Hk'.
      * cbn in Hc. destruct Hc as [<-|[<-|[]]]; exact Hk'.
      * cbn in Hc. destruct Hc as [<-|[<-|[]]]; [exact Hk'|reflexivity].
    + unfold s1. cbn [f_set_rout f_rout]. now apply nth_upd_eq.
  - assert (Rt : forall sc a b, run f_step (Ret a) sc = Some (Ret b) -> f_rt b = f_rt a).
    { clear. induction sc as [|c sc IH]; intros a b H; cbn [run] in H; [now injection H as <-|].
      destruct (f_step a c) as [[a1| |]|] eqn:E; try discriminate; [|destruct sc; discriminate..]. rewrite (IH _ _ H).
      destruct c as [|k d|w]; cbn [f_step] in E.
      - destruct (f_main a); try discriminate; [destruct (_ <? _)%nat|]; injection E as <-; reflexivity.
      - destruct (nth_error (f_rout a) k) as [[c|c|x p|u|]|]; try discriminate.
        + destruct (f_main a); injection E as <-; reflexivity.
        + injection E as <-. reflexivity.
        + destruct (isValidGaussianIntGCD _); [|injection E as <-; reflexivity]. destruct (findTwoSquares GCD p d) as [[? ?]|]; [|discriminate]. injection E as <-. reflexivity.
        + destruct (f_main a); injection E as <-; reflexivity.
      - destruct (f_main a); try discriminate. injection E as <-. reflexivity. }
    rewrite (Rt _ _ _ Full). reflexivity.
Qed.
End Race.
