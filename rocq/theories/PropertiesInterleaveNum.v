(** C129: the parallel provers under every schedule, with the numbers in memory. Statements about
    InterleaveNumModel.v; [always] and its parts are those of PropertiesInterleave.v. *)
From Coq Require Import ZArith Bool List Lia.
From Verif Require Import GoBig Spec AccModel AccFacts AccProofs SliceModel SliceProofs PropertiesSlices
  InterleaveModel InterleaveProofs InterleaveFuns PropertiesInterleave InterleaveNumModel InterleaveNumFuns.
Import ListNotations.
Open Scope nat_scope.

(** ** vocabulary *)
(** in heap [h], [a] is a number with value [v] *)
Definition number (h : heap) (a : nat) (v : Z) : Prop := nth_error h a = Some [Some v].
(** a slice of numbers: the cells hold [ps], the numbers are [vs]; the same number may occur twice *)
Definition numbers (h : heap) (s : hdr) (ps : list nat) (vs : list Z) : Prop :=
  argument h s (map Z.of_nat ps) /\ Forall2 (number h) ps vs.
(** the cells of [s] and the numbers [ps] *)
Definition given (s : hdr) (ps : list nat) (a i : nat) : Prop := inside s a i \/ In a ps.
(** a slice that was made since [h], whose elements are different numbers made since [h], with values [vs] *)
Definition new_numbers (h h' : heap) (r : hdr) (qs : list nat) (vs : list Z) : Prop :=
  fresh h h' r (map Z.of_nat qs) /\ NoDup (h_arr r :: qs) /\ Forall (fun a => length h <= a) qs /\
  Forall2 (number h') qs vs.

(** ** from the proofs to the vocabulary *)
Lemma number_common : forall h (R : nat -> nat -> Prop) a v, number h a v -> R a 0 -> common h R a v.
Proof. intros h R a v E HR. split; [exact HR|]. unfold cell_at. now rewrite (array_error h a _ E). Qed.
Lemma numbers_elements : forall h (R : nat -> nat -> Prop) s ps vs, numbers h s ps vs -> (forall a i, given s ps a i -> R a i) ->
  elements h R s vs.
Proof.
  intros h R s ps vs [Ha F] HR. exists ps. split.
  - apply argument_shared; [exact Ha|]. intros a i I. apply HR. now left.
  - assert (G : forall a, In a ps -> R a 0) by (intros a I; apply HR; now right). clear - F G.
    induction F as [|p v ps vs E F IH]; constructor; [apply number_common; [exact E|apply G; now left]|].
    apply IH. intros a I. apply G. now right.
Qed.
Lemma holds_new : forall h O h' qs vs r, sound h O h' -> holds O qs vs r -> new_numbers h h' r qs vs.
Proof.
  intros h O h' qs vs r Hs (D & M & F). split; [eapply mine_fresh; eassumption|]. split; [exact D|]. clear D M.
  destruct Hs as (_ & _ & Hs). induction F as [|q v qs vs E F [IH1 IH2]]; [split; constructor|].
  destruct (Hs q _ E) as [Lq Eq]. split; constructor; assumption.
Qed.
Lemma sound_number : forall h O h' a v, sound h O h' -> O a = Some [Some v] -> length h <= a /\ number h' a v.
Proof. intros h O h' a v (_ & _ & S) E. now apply S. Qed.

(** ** C129 *)
(** [N] and [base] may be numbers that also occur in the set *)
Theorem C129_parallel : forall grow h N n base g s xs vs, number h N n -> number h base g -> numbers h s xs vs ->
  (0 < n)%Z -> (0 <= g < n)%Z -> Forall (fun x => 0 <= x)%Z vs -> vs <> [] ->
  exists ws, witnesses g n vs ws /\ forall limit,
    always (given s (N :: base :: xs)) (ProveMembershipParallel_n grow N base s limit) h
      (fun r h' => exists qs, new_numbers h h' r qs ws).
Proof.
  intros grow h N n base g s xs vs HN Hb Hs Hn Hg Hv Hne. exists (wit g n 1 vs). split; [apply wit_witnesses|]. intros limit.
  eapply runs_always.
  - eapply good_parallel_n; [apply number_common; [exact HN|right; now left]|exact Hn|exact Hv| | | |now right].
    + eapply numbers_elements; [exact Hs|]. intros a i [I|I]; [now left|right; right; now right].
    + apply common_num, number_common; [exact Hb|right; right; now left].
    + destruct vs; [congruence|cbn; lia].
  - intros r O h' (qs & M) S. exists qs. eapply holds_new; eassumption.
Qed.

(** the functions with a randomizer *)
Theorem C129_randomizer : forall grow h N n base g ra r s xs vs limit, number h N n -> number h base g -> number h ra r ->
  numbers h s xs vs -> (0 < n)%Z -> (0 <= r)%Z -> Forall (fun x => 0 <= x)%Z vs -> 4 <= length vs ->
  exists ws, length ws = length vs /\
    (forall i w, nth_error ws i = Some w ->
       w = (g ^ ((if limit <=? 0 then r else 1) * product (without i vs)) mod n)%Z) /\
    always (given s (N :: base :: ra :: xs)) (ParallelWithRandomizer_n grow N base ra s limit) h
      (fun x h' => exists qs, new_numbers h h' x qs ws).
Proof.
  intros grow h N n base g ra r s xs vs limit HN Hb Hra Hs Hn Hr Hv L4.
  exists (wit g n (if (limit <=? 0)%Z then r else 1%Z) vs). split; [apply wit_length|]. split.
  - intros i w H. now apply wit_nth in H.
  - eapply runs_always.
    + eapply good_parallel_randomizer_n; [apply number_common; [exact HN|right; now left]|exact Hn|exact Hr|exact Hv| | | |exact L4].
      * eapply numbers_elements; [exact Hs|]. intros a i [I|I]; [now left|right; right; right; now right].
      * apply common_num, number_common; [exact Hb|right; right; now left].
      * apply number_common; [exact Hra|right; right; right; now left].
    + intros x O h' (qs & M) S. exists qs. eapply holds_new; eassumption.
Qed.

(** SetProductParallel returns a new number *)
Theorem C129_product : forall h s xs vs limit, numbers h s xs vs ->
  always (given s xs) (SetProductParallel_n s limit) h (fun a h' => length h <= a /\ number h' a (product vs)).
Proof.
  intros h s xs vs limit Hs. assert (E : elements h (given s xs) s vs) by (eapply numbers_elements; eauto).
  eapply runs_always.
  - unfold SetProductParallel_n. eapply runs_product_parallel_n; [exact E|]. rewrite (elements_length _ _ _ _ E). apply le_n.
  - intros a O h' Ea S. eapply sound_number; eassumption.
Qed.

(** two callers at the same time, with the same modulus, base and elements or with others: the results
    have neither an array nor a number in common *)
Theorem C129_two_callers : forall grow h N1 n1 N2 n2 b1 g1 b2 g2 s1 s2 xs1 xs2 vs1 vs2 limit1 limit2,
  number h N1 n1 -> number h b1 g1 -> numbers h s1 xs1 vs1 -> (0 < n1)%Z -> (0 <= g1 < n1)%Z ->
  Forall (fun x => 0 <= x)%Z vs1 -> vs1 <> [] ->
  number h N2 n2 -> number h b2 g2 -> numbers h s2 xs2 vs2 -> (0 < n2)%Z -> (0 <= g2 < n2)%Z ->
  Forall (fun x => 0 <= x)%Z vs2 -> vs2 <> [] ->
  exists ws1 ws2, witnesses g1 n1 vs1 ws1 /\ witnesses g2 n2 vs2 ws2 /\
    always (fun a i => given s1 (N1 :: b1 :: xs1) a i \/ given s2 (N2 :: b2 :: xs2) a i)
      (ppar (ProveMembershipParallel_n grow N1 b1 s1 limit1) (ProveMembershipParallel_n grow N2 b2 s2 limit2)) h
      (fun r h' => exists qs1 qs2, new_numbers h h' (fst r) qs1 ws1 /\ new_numbers h h' (snd r) qs2 ws2 /\
         forall a, In a (h_arr (fst r) :: qs1) -> ~ In a (h_arr (snd r) :: qs2)).
Proof.
  intros grow h N1 n1 N2 n2 b1 g1 b2 g2 s1 s2 xs1 xs2 vs1 vs2 limit1 limit2 HN1 Hb1 Hs1 Hn1 Hg1 Hv1 Hne1 HN2 Hb2 Hs2 Hn2 Hg2 Hv2 Hne2.
  exists (wit g1 n1 1 vs1), (wit g2 n2 1 vs2). split; [apply wit_witnesses|]. split; [apply wit_witnesses|].
  eapply runs_always.
  - eapply (runs_par h _ _ _ _ _ _ _ _ (fun r O => exists qs1 qs2, holds O qs1 (wit g1 n1 1 vs1) (fst r) /\
      holds O qs2 (wit g2 n2 1 vs2) (snd r) /\ forall a, In a (h_arr (fst r) :: qs1) -> ~ In a (h_arr (snd r) :: qs2))).
    + eapply good_parallel_n; [apply number_common; [exact HN1|left; right; now left]|exact Hn1|exact Hv1| | | |right; exact Hg1].
      * eapply numbers_elements; [exact Hs1|]. intros a i [I|I]; left; [now left|right; right; now right].
      * apply common_num, number_common; [exact Hb1|left; right; right; now left].
      * destruct vs1; [congruence|cbn; lia].
    + eapply good_parallel_n; [apply number_common; [exact HN2|right; right; now left]|exact Hn2|exact Hv2| | | |right; exact Hg2].
      * eapply numbers_elements; [exact Hs2|]. intros a i [I|I]; right; [now left|right; right; now right].
      * apply common_num, number_common; [exact Hb2|right; right; right; now left].
      * destruct vs2; [congruence|cbn; lia].
    + intros x y O1 O2 O' (p & M1) (q & M2) W1 W2 A. exists p, q. cbn [fst snd].
      split; [now apply (holds_within O1)|]. split; [now apply (holds_within O2)|]. exact (apart_holds _ _ _ _ _ _ _ _ A M1 M2).
  - intros r O h' (p & q & M1 & M2 & D) S. exists p, q. split; [eapply holds_new; eassumption|].
    split; [eapply holds_new; eassumption|exact D].
Qed.

(** ** cases *)
(** the modulus, three numbers and a slice of five pointers in the middle of an array; the base is also the
    second and the fourth element; two schedules *)
Definition memory : heap := [[Some 101]; [Some 2]; [Some 3]; [Some 5]; map Some [0; 1; 2; 3; 2; 1; 0]]%Z.
Definition pointers : hdr := Hdr 4 1 5 6.
Definition values_of (h : heap) (s : hdr) : list (list cell) :=
  map (fun c => match c with Some z => array h (Z.to_nat z) | None => [] end) (view h s).
Definition answers (c : prog hdr * heap) : option (list (list cell)) :=
  match fst c with PRet r => Some (values_of (snd c) r) | _ => None end.
Example C129_case : number memory 0 101 /\ number memory 2 3 /\
  numbers memory pointers [1; 2; 3; 2; 1] [2; 3; 5; 3; 2]%Z /\
  let out m := play 700 m (ProveMembershipParallel_n double 0 2 pointers 3) memory in
  answers (out 0) = Some (map (fun e => [Some (3 ^ e mod 101)%Z])
     [3 * 5 * 3 * 2; 2 * 5 * 3 * 2; 2 * 3 * 3 * 2; 2 * 3 * 5 * 2; 2 * 3 * 5 * 3]%Z) /\
  answers (out 5) = answers (out 0) /\ snd (out 5) <> snd (out 0).
Proof.
  split; [reflexivity|]. split; [reflexivity|]. split.
  - split; [unfold argument, wf; cbn; repeat split; lia|]. repeat constructor.
  - cbv zeta. split; [vm_compute; reflexivity|]. split; [vm_compute; reflexivity|]. vm_compute; discriminate.
Qed.

(** what the theorems rule out: a goroutine that raises its base in place races with one that reads it *)
Definition in_place : prog (unit * nat) :=
  ppar (pdo x <- pval 2; pset 2 (x * x)%Z) (pmul 1 2).
Example C129_race_seen : exists p h, reaches in_place memory p h /\ racing p.
Proof.
  eexists _, _. split.
  - eapply reaches_trans; [eapply (rc_step _ _ _ _ [true]); [constructor|reflexivity]|].
    eapply (rc_step _ _ _ _ [false]); [constructor|reflexivity].
  - cbn. auto.
Qed.

Print Assumptions C129_parallel.
Print Assumptions C129_randomizer.
Print Assumptions C129_product.
Print Assumptions C129_two_callers.
