(** C127: sub-slices and append. Statements about the slice-level model of SliceModel.v. *)
From Coq Require Import ZArith Bool List Lia.
From Verif Require Import GoBig Spec AccModel AccFacts AccProofs SliceModel SliceProofs.
Import ListNotations.
Open Scope nat_scope.

(** ** vocabulary *)
(** [s] is a slice of existing arrays (or nil) with the numbers [vs] in it *)
Definition argument (h : heap) (s : hdr) (vs : list Z) : Prop :=
  wf h s /\ view h s = map Some vs /\ (h_arr s < length h \/ h_cap s = 0).

(** after [l], starting from [h] and ending in [h']: no array that existed before has changed, not even
    beyond the elements of the arguments; nothing was written but new arrays; nothing was read but the
    elements [P] of the arguments and new arrays; and no two goroutines raced *)
Definition harmless (P : nat -> nat -> Prop) (h h' : heap) (l : list access) : Prop :=
  (forall a, a < length h -> nth_error h' a = nth_error h a) /\
  (forall a i, In (Wr a i) l -> length h <= a) /\
  (forall a i, In (Rd a i) l -> P a i \/ length h <= a) /\
  ~ In Race l.

(** [r] is in a new array and has the numbers [ps] in it *)
Definition fresh (h h' : heap) (r : hdr) (ps : list Z) : Prop :=
  length h <= h_arr r < length h' /\ wf h' r /\ view h' r = map Some ps.

Definition proves (f : M hdr) (h : heap) (s : hdr) (ps : list Z) : Prop :=
  exists r h' l, f h = Ret (r, h', l) /\ harmless (inside s) h h' l /\ fresh h h' r ps.

Lemma keeps_error : forall h h', keeps (length h) h h' -> forall a, a < length h -> nth_error h' a = nth_error h a.
Proof.
  intros h h' [L K] a Ha. specialize (K a Ha). unfold array in K.
  rewrite (nth_error_nth' h' [] (n := a)) by lia. rewrite (nth_error_nth' h [] (n := a)) by lia. now rewrite K.
Qed.
Lemma fine_harmless : forall P h h' l, keeps (length h) h h' -> Forall (fine (length h) (length h') P) l ->
  harmless P h h' l.
Proof.
  intros P h h' l K F. rewrite Forall_forall in F. split; [now apply keeps_error|]. split; [|split].
  - intros a i H. apply F in H. cbn in H. lia.
  - intros a i H. apply F in H. cbn in H. destruct H; [now left|right; lia].
  - intros H. now apply F in H.
Qed.
Lemma made_fresh : forall h h' r ps, made (length h) ps r h' -> fresh h h' r ps.
Proof. intros h h' r ps [[W V] L]. exact (conj L (conj W V)). Qed.
Lemma sim_proves : forall f h s ps, sim (length h) (inside s) f h (Ret ps) (made (length h)) -> proves f h s ps.
Proof.
  intros f h s ps (r & h' & l & E & K & F & Q). exists r, h', l. split; [exact E|].
  split; [now apply fine_harmless|now apply made_fresh].
Qed.

(** ** C127 *)
(** the divide-and-conquer functions, sequential and parallel *)
Theorem C127_membership : forall grow N base h s vs, (0 < N)%Z -> (0 <= base < N)%Z ->
  argument h s vs -> Forall (fun x => 0 <= x)%Z vs -> vs <> [] ->
  exists ps, witnesses base N vs ps /\
    proves (ProveMembership_sl grow N base s) h s ps /\
    forall limit, proves (ProveMembershipParallel_sl grow N base s limit) h s ps.
Proof.
  intros grow N base h s vs HN Hb (W & V & Lo) Hv Hne. exists (wit base N 1 vs).
  assert (L1 : 1 <= length vs) by (destruct vs; [congruence|cbn; lia]).
  assert (B : base_ok base N vs) by now right.
  split; [apply wit_witnesses|]. split.
  - apply sim_proves, goodw_membership; auto; now split.
  - intros limit. apply sim_proves. apply (goodw_parallel grow N limit HN); auto; now split.
Qed.

(** every input, also those on which ProveMembership panics *)
Theorem C127_refines : forall grow N base h s vs, argument h s vs ->
  match ProveMembership base N vs with
  | Ret ps => proves (ProveMembership_sl grow N base s) h s ps
  | Panic => ProveMembership_sl grow N base s h = Panic
  | OutOfFuel => False
  end.
Proof.
  intros grow N base h s vs (W & V & Lo).
  pose proof (good_ProveMembership grow N base h s vs (conj W V) Lo) as G.
  destruct (ProveMembership base N vs) as [ps| |] eqn:E.
  - now apply sim_proves.
  - exact G.
  - exact (ProveMembership_fuel base N vs E).
Qed.

(** the functions with a randomizer: four elements at least, see C09 and C10 for the values *)
Theorem C127_randomizer : forall grow N base r h s vs limit, (0 < N)%Z -> (0 <= r)%Z ->
  argument h s vs -> Forall (fun x => 0 <= x)%Z vs -> 4 <= length vs ->
  exists ps, length ps = length vs /\
    (forall i w, nth_error ps i = Some w ->
       w = (base ^ ((if limit <=? 0 then r else 1) * product (without i vs)) mod N)%Z) /\
    proves (ParallelWithRandomizer_sl grow N base r s limit) h s ps /\
    ((limit <= 0)%Z -> proves (SingleThreadWithRandomizer_sl grow N base r s) h s ps).
Proof.
  intros grow N base r h s vs limit HN Hr (W & V & Lo) Hv L4.
  exists (wit base N (if (limit <=? 0)%Z then r else 1%Z) vs). split; [apply wit_length|]. split; [|split].
  - intros i w H. now apply wit_nth in H.
  - apply sim_proves. apply good_parallel_randomizer; auto. now split.
  - intros Hl. apply sim_proves. destruct (Z.leb_spec limit 0); [|lia].
    rewrite <- (Randomizer_spec base r N vs) by assumption. apply good_randomizer; auto. now split.
Qed.

(** the end of the iterative functions: everything is appended into the one array made for it *)
Theorem C127_gather : forall grow n (ps : list Z) h, length ps <= n -> exists l,
  gather grow n (map Some ps) h =
    Ret (Hdr (length h) 0 (length ps) n, h ++ [map Some ps ++ repeat None (n - length ps)], l) /\
  forall x, In x l -> exists i, x = Wr (length h) i.
Proof.
  intros grow n ps h Hn. destruct (gather_run grow (map Some ps) h n) as (l & E & F); [now rewrite map_length|].
  rewrite map_length in E. exists l. split; [exact E|]. now apply Forall_forall.
Qed.

(** the collecting goroutine: whatever the order in which the workers finish, and whether or not their
    slices have spare capacity, the result is the whole list *)
Theorem C127_collector : forall proofs rs h,
  (forall lo hi p, In (lo, hi, p) rs ->
     lo <= hi <= length proofs /\ argument h p (firstn (hi - lo) (skipn lo proofs))) ->
  (forall j, j < length proofs -> exists lo hi p, In (lo, hi, p) rs /\ lo <= j < hi) ->
  exists r h' l, collector (length proofs) rs h = Ret (r, h', l) /\ fresh h h' r proofs /\
    harmless (fun a i => exists lo hi p, In (lo, hi, p) rs /\ inside p a i) h h' l.
Proof.
  intros proofs rs h Hr Hc.
  destruct (collector_run (fun _ n => n) proofs rs h) as (l & E & F).
  - apply Forall_forall. intros [[lo hi] p] H. destruct (Hr _ _ _ H) as (B & W & V & Lo).
    split; [exact B|]. now split.
  - exact Hc.
  - eexists _, _, l. split; [exact E|]. split.
    + apply made_fresh. split; [split|].
      * unfold wf. cbn [h_len h_cap h_off h_arr]. rewrite array_new, map_length. lia.
      * unfold view. cbn [h_len h_cap h_off h_arr skipn]. rewrite array_new. apply firstn_all2. now rewrite map_length.
      * cbn [h_arr]. rewrite app_length. cbn. lia.
    + apply fine_harmless.
      * split; [rewrite app_length; lia|]. intros a Ha. now apply array_app.
      * rewrite app_length. cbn [length]. rewrite Nat.add_1_r. exact F.
Qed.

(** the experiments append two different sets to the slice of the unchanged users; the second append does
    not disturb the first, because GenRepresentatives leaves no spare capacity *)
Theorem C127_two_sets : forall grow N base r limit U vi vr ins rem h, (0 < N)%Z -> (0 <= r)%Z ->
  argument h ins vi -> argument h rem vr ->
  Forall (fun x => 0 <= x)%Z (U ++ vi) -> 4 <= length (U ++ vi) ->
  exists newSet1 proofs original h' l ps,
    two_sets grow (fun s => ParallelWithRandomizer_sl grow N base r s limit) U ins rem h =
      Ret ((newSet1, proofs, original), h', l) /\
    harmless (fun a i => inside ins a i \/ inside rem a i) h h' l /\
    fresh h h' newSet1 (U ++ vi) /\ fresh h h' original (U ++ vr) /\ fresh h h' proofs ps /\
    length ps = length (U ++ vi) /\
    forall i w, nth_error ps i = Some w ->
      w = (base ^ ((if limit <=? 0 then r else 1) * product (without i (U ++ vi))) mod N)%Z.
Proof.
  intros grow N base r limit U vi vr ins rem h HN Hr (Wi & Vi & Li) (Wr' & Vr & Lr) Hv L4.
  set (ps := wit base N (if (limit <=? 0)%Z then r else 1%Z) (U ++ vi)).
  pose proof (two_sets_run grow (fun s => ParallelWithRandomizer_sl grow N base r s limit) U ins rem vi vr h ps
    (conj Wi Vi) Li (conj Wr' Vr) Lr) as G.
  destruct G as ([[n1 pr] og] & h' & l & E & K & F & M1 & M2 & M3).
  { intros h1 s Hs Ls. now apply good_parallel_randomizer. }
  exists n1, pr, og, h', l, ps. split; [exact E|]. split; [now apply fine_harmless|].
  split; [now apply made_fresh|]. split; [now apply made_fresh|]. split; [now apply made_fresh|].
  split; [apply wit_length|]. intros i w H. now apply wit_nth in H.
Qed.

(** ** cases *)
(** five elements in the middle of an array of nine: the sub-slices have spare capacity reaching into each
    other and into the cells behind the argument *)
Definition nine : heap := [map Some [77; 2; 3; 5; 7; 11; 78; 79; 80]%Z].
Definition five : hdr := Hdr 0 1 5 8.
Definition double (c n : nat) : nat := 2 * n.
Example C127_case : argument nine five [2; 3; 5; 7; 11]%Z /\
  (exists r h' l, ProveMembershipParallel_sl double 101 3 five 3 nine = Ret (r, h', l) /\
     view h' r = map Some [60; 17; 21; 6; 65]%Z /\ nth 0 h' [] = nth 0 nine [] /\ h_len r < h_cap r /\
     existsb (fun x => match x with Race => true | _ => false end) l = false).
Proof.
  split.
  - unfold argument, wf. cbn. repeat split; try lia.
  - eexists _, _, _. split; [vm_compute; reflexivity|]. repeat split; vm_compute; try reflexivity. lia.
Qed.

(** what the theorems rule out: with spare capacity, appending twice to the same slice overwrites *)
Example C127_spare_capacity :
  let h := [map Some [2; 3]%Z ++ repeat None 2] in
  let u := Hdr 0 0 2 4 in
  exists s1 h1 l1 s2 h2 l2,
    append double u [Some 5%Z] h = Ret (s1, h1, l1) /\ view h1 s1 = map Some [2; 3; 5]%Z /\
    append double u [Some 7%Z] h1 = Ret (s2, h2, l2) /\ view h2 s1 = map Some [2; 3; 7]%Z.
Proof. cbv zeta. eexists _, _, _, _, _, _. repeat split; vm_compute; reflexivity. Qed.
(** and two goroutines appending to adjacent sub-slices race *)
Example C127_race_seen :
  exists r h' l, par (append double (Hdr 0 1 2 8) [Some 1%Z]) (getz (Hdr 0 3 2 6) 0) nine = Ret (r, h', l) /\ In Race l.
Proof. eexists _, _, _. split; [vm_compute; reflexivity|]. cbn. auto. Qed.

Example C127_two_sets_case : exists r h' l,
  two_sets double (fun s => ParallelWithRandomizer_sl double 101 3 13 s 0) [2; 3; 5]%Z (Hdr 0 1 2 8) (Hdr 0 4 2 5) nine
    = Ret (r, h', l) /\
  view h' (fst (fst r)) = map Some [2; 3; 5; 2; 3]%Z /\ view h' (snd r) = map Some [2; 3; 5; 7; 11]%Z.
Proof. eexists _, _, _. split; [vm_compute; reflexivity|]. split; vm_compute; reflexivity. Qed.
Example C127_collector_case : exists r h' l,
  collector 3 [(1, 3, Hdr 0 2 2 7); (0, 1, Hdr 0 1 1 8)] nine = Ret (r, h', l) /\ view h' r = map Some [2; 3; 5]%Z.
Proof. eexists _, _, _. split; vm_compute; reflexivity. Qed.

Print Assumptions C127_membership.
Print Assumptions C127_refines.
Print Assumptions C127_randomizer.
Print Assumptions C127_gather.
Print Assumptions C127_collector.
Print Assumptions C127_two_sets.
