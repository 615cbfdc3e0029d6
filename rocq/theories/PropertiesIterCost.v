(** Theorems for property C116: the work of ProveMembershipIter. *)
From Coq Require Import ZArith Bool Lia List ZifyNat.
From Verif Require Import GoBig GoBigFacts AccModel AccFacts AccProofs IterModel IterProofs CostModel IterCostModel PropertiesCost.
Import ListNotations.
Open Scope Z_scope.

Lemma c_Iter_ne : forall m base N set, set <> [] -> c_ProveMembershipIter m base N set =
  (let '(m1, b) := alloc m base in
   cdo st' <- c_passes (S (length set)) (State m1 [PNode 0 (length set) b None]) 0 N set;
   cdo ps <- free (collect (S (length set)) (nodes st') (Some 0%nat)); free (Ret (cells st', ps))).
Proof. intros m base N [|a set] H; [congruence|reflexivity]. Qed.

(** ** The budget *)
Definition split_cost (s : nat) : Z := Z.of_nat s * Z.log2_up (Z.of_nat s).
Definition node_budget (nd : pnode) : Z := split_cost (right nd - IterModel.left nd).
Definition budget (nds : list pnode) : Z := zsum (map node_budget nds).
Lemma log2_up_halves : forall n m, 2 <= n -> 2 * m <= n + 1 -> Z.log2_up m <= Z.log2_up n - 1.
Proof.
  intros n m Hn Hm. destruct (Z.eq_dec n 2) as [->|D]; [|apply log2_up_half; lia].
  change (Z.log2_up 2 - 1) with 0. rewrite Z.log2_up_eqn0 by lia. lia.
Qed.
Lemma split_cost_halves : forall s, (2 <= s)%nat -> Z.of_nat s + split_cost (s / 2) + split_cost (s - s / 2) <= split_cost s.
Proof.
  intros s Hs. unfold split_cost. pose proof (log2_up_halves (Z.of_nat s) (Z.of_nat (s / 2)) ltac:(lia) ltac:(lia)) as A.
  pose proof (log2_up_halves (Z.of_nat s) (Z.of_nat (s - s / 2)) ltac:(lia) ltac:(lia)) as B.
  set (x := Z.of_nat (s / 2)) in *. set (y := Z.of_nat (s - s / 2)) in *. assert (E : Z.of_nat s = x + y) by lia. assert (0 <= x /\ 0 <= y) by lia. clearbody x y. rewrite E in *. set (l := Z.log2_up (x + y)) in *.
  assert (x * Z.log2_up x <= x * (l - 1)) by (apply Z.mul_le_mono_nonneg_l; lia). assert (y * Z.log2_up y <= y * (l - 1)) by (apply Z.mul_le_mono_nonneg_l; lia). lia.
Qed.
Lemma split_cost_nonneg : forall s, 0 <= split_cost s.
Proof. intros s. unfold split_cost. pose proof (Z.log2_up_nonneg (Z.of_nat s)). apply Z.mul_nonneg_nonneg; lia. Qed.
Lemma zsum_app : forall l l', zsum (l ++ l') = zsum l + zsum l'.
Proof. induction l as [|x l IH]; intros l'; [reflexivity|]. cbn [app]. unfold zsum in *. cbn [fold_right]. rewrite IH. lia. Qed.
Lemma budget_nonneg : forall nds, 0 <= budget nds.
Proof. intros nds. apply zsum_nonneg. intros. apply split_cost_nonneg. Qed.

Section Iter.
Variable m0 : mem.
Variable set : list addr.
(** every operation recorded is an exponentiation by a representative as it was before the call *)
Definition of_set (o : op) : Prop := exists a e, In a set /\ nth_error m0 a = Some e /\ o = Exp e.
Definition intact (m : mem) : Prop := (length m0 <= length m)%nat /\ forall a, (a < length m0)%nat -> nth_error m a = nth_error m0 a.
Hypothesis set_old : forall a, In a set -> (a < length m0)%nat.

Lemma intact_store : forall m g v, intact m -> (length m0 <= g < length m)%nat -> intact (store m g v).
Proof. intros m g v [L I] H. split; [rewrite store_length by lia; lia|]. intros a Ha. rewrite store_nth by lia. destruct (Nat.eq_dec a g) as [->|D]; [lia|]. destruct (Nat.eqb_spec a g); [lia|]. now apply I. Qed.
Lemma accumulate_ops : forall part m g N, intact m -> (length m0 <= g < length m)%nat -> incl part set ->
  Forall of_set (snd (c_accumulate m g N part)) /\ total exps (snd (c_accumulate m g N part)) <= Z.of_nat (length part) /\
  forall m', fst (c_accumulate m g N part) = Ret m' -> intact m' /\ length m' = length m /\ total exps (snd (c_accumulate m g N part)) = Z.of_nat (length part).
Proof.
  induction part as [|a part IH]; intros m g N I G Hp.
  - cbn [c_accumulate free fst snd]. split; [constructor|]. split; [cbn; lia|]. intros m' E. injection E as <-. now split.
  - cbn [c_accumulate]. 
    try unfold free, load in |- *. destruct (nth_error m g) as [x|]; cbn [deref cbind]; [|cbn [fst snd]; split; [constructor|split; [rewrite total_nil; lia|discriminate]]].
    try unfold free, load in |- *. destruct (nth_error m a) as [e|] eqn:Ea; cbn [deref cbind]; [|cbn [fst snd app]; split; [constructor|split; [rewrite total_nil; lia|discriminate]]].
    try unfold free in |- *. destruct (deref (nth_error m N)) as [n| |]; cbn [cbind]; [|cbn [fst snd app]; (split; [constructor|split; [rewrite total_nil; lia|discriminate]])..].
    cbn [cbind]. destruct (IH (store m g (exp_recv x x e n)) g N) as (I1 & I2 & I3); [now apply intact_store|rewrite store_length by lia; lia|intros z Z; apply Hp; now right|].
    destruct (c_accumulate (store m g (exp_recv x x e n)) g N part) as [o l]. cbn [fst snd app] in *.
    assert (Hin : In a set) by (apply Hp; now left). split; [|split].
    + constructor; [|exact I1]. exists a, e. split; [exact Hin|]. split; [|reflexivity]. destruct I as [_ I]. rewrite <- I; [exact Ea|now apply set_old].
    + rewrite total_cons. cbn [exps length]. lia.
    + intros m' ->. destruct (I3 m' eq_refl) as (J1 & J2 & J3). split; [exact J1|]. rewrite store_length in J2 by lia. split; [exact J2|]. rewrite total_cons. cbn [exps length]. lia.
Qed.
Lemma intact_alloc : forall m v, intact m -> intact (m ++ [v]).
Proof. intros m v [L I]. split; [rewrite app_length; lia|]. intros a Ha. rewrite nth_error_app1 by lia. now apply I. Qed.
Lemma accumulateNew_ops : forall part m g N, intact m -> incl part set ->
  Forall of_set (snd (c_accumulateNew m g N part)) /\ total exps (snd (c_accumulateNew m g N part)) <= Z.of_nat (length part) /\
  forall m' a, fst (c_accumulateNew m g N part) = Ret (m', a) -> intact m' /\ length m' = S (length m) /\ a = length m /\ total exps (snd (c_accumulateNew m g N part)) = Z.of_nat (length part).
Proof.
  intros part m g N I Hp. unfold c_accumulateNew, free, load. destruct (nth_error m g) as [x|]; cbn [deref cbind]; [|cbn [fst snd]; split; [constructor|split; [rewrite total_nil; lia|discriminate]]].
  cbn [alloc]. destruct (accumulate_ops part (m ++ [x]) (length m) N (intact_alloc m x I)) as (A1 & A2 & A3); [destruct I; rewrite app_length; cbn [length]; lia|exact Hp|].
  destruct (c_accumulate (m ++ [x]) (length m) N part) as [[m2| |] l]; cbn [cbind free fst snd app] in *; rewrite ?app_nil_r; (split; [exact A1|split; [exact A2|]]); try discriminate.
  intros m' a E. injection E as <- <-. destruct (A3 m2 eq_refl) as (B1 & B2 & B3). rewrite app_length in B2. cbn [length] in B2. repeat split; auto; try apply B1; lia.
Qed.

Definition sound (st : state) : Prop := intact (cells st) /\ Forall (fun nd => (length m0 <= proof nd < length (cells st))%nat) (nodes st).
Lemma go_slice_part : forall l i j s, go_slice l i j = Ret s -> s = slice l i j /\ (i <= j <= length l)%nat /\ length s = (j - i)%nat /\ @incl addr s l.
Proof.
  intros l i j s E. unfold go_slice in E. destruct ((i <=? j) && (j <=? length l))%nat eqn:C; [|discriminate E]. apply andb_prop in C as [C1 C2]. apply Nat.leb_le in C1, C2. injection E as <-.
  split; [reflexivity|]. split; [lia|]. unfold slice. split; [rewrite firstn_length, skipn_length; lia|]. intros z Z. rewrite <- (firstn_skipn i l). apply in_or_app. right. rewrite <- (firstn_skipn (j - i) (skipn i l)). apply in_or_app. now left.
Qed.

Lemma insert_ops : forall st i N nd, sound st -> nth_error (nodes st) i = Some nd -> (2 <= right nd - IterModel.left nd)%nat ->
  let run := c_insertNewProofNode st i N set in
  Forall of_set (snd run) /\ total exps (snd run) <= budget (nodes st) /\
  forall st' i', fst run = Ret (st', i') -> sound st' /\ total exps (snd run) + budget (nodes st') <= budget (nodes st).
Proof.
  intros st i N nd [I F] Hi Hb. cbv zeta. unfold c_insertNewProofNode. rewrite Hi. unfold free in |- *. cbn [deref cbind].
  set (l := IterModel.left nd) in *. set (r := right nd) in *. set (mid := (l + (r - l) / 2)%nat) in *.
  assert (Z0 : forall A (o : outcome A), Forall of_set [] /\ total exps [] <= budget (nodes st)) by (intros A o; split; [constructor|rewrite total_nil; apply budget_nonneg]).
  try unfold free in |- *. destruct (go_slice set l mid) as [sl| |] eqn:SL; cbn [cbind app fst snd]; [|destruct (Z0 _ (Ret 0)); repeat split; auto; discriminate..].
  try unfold free in |- *. destruct (go_slice set mid r) as [sr| |] eqn:SR; cbn [cbind app fst snd]; [|destruct (Z0 _ (Ret 0)); repeat split; auto; discriminate..].
  apply go_slice_part in SL as (_ & _ & LL & IL). apply go_slice_part in SR as (_ & Br & LR & IR).
  assert (HF : (length m0 <= proof nd < length (cells st))%nat) by (rewrite Forall_forall in F; apply F; eapply nth_error_In; eassumption).
  assert (Hs : split_cost (r - l) <= budget (nodes st)).
  { unfold budget. pose proof (zsum_upd _ node_budget (nodes st) i nd (PNode 0 0 0%nat None) Hi) as U. change (node_budget (PNode 0 0 0%nat None)) with 0 in U. change (node_budget nd) with (split_cost (r - l)) in U.
    pose proof (zsum_nonneg _ node_budget (firstn i (nodes st) ++ PNode 0 0 0%nat None :: skipn (S i) (nodes st)) ltac:(intros; apply split_cost_nonneg)). lia. }
  assert (HC : Z.of_nat (r - l) + split_cost (mid - l) + split_cost (r - mid) <= split_cost (r - l)).
  { pose proof (split_cost_halves (r - l) Hb) as Q. replace (mid - l)%nat with ((r - l) / 2)%nat by (subst mid; lia). replace (r - mid)%nat with (r - l - (r - l) / 2)%nat by (subst mid; lia). exact Q. }
  pose proof (split_cost_nonneg (mid - l)) as P1. pose proof (split_cost_nonneg (r - mid)) as P2.
  assert (EQ : Z.of_nat (length sl) + Z.of_nat (length sr) = Z.of_nat (r - l)) by (rewrite LL, LR; subst mid; clear - Hb Br; lia).
  destruct (accumulateNew_ops sl (cells st) (proof nd) N I IL) as (A1 & A2 & A3).
  destruct (c_accumulateNew (cells st) (proof nd) N sl) as [[[m1 p1]| |] l1]; cbn [cbind app fst snd] in *; [|split; [exact A1|split; [clear - A2 EQ HC Hs P1 P2; lia|discriminate]]..].
  destruct (A3 m1 p1 eq_refl) as (J1 & J2 & J3 & J4). clear A3.
  destruct (accumulate_ops sr m1 (proof nd) N J1 ltac:(lia) IR) as (B1 & B2 & B3).
  destruct (c_accumulate m1 (proof nd) N sr) as [[m2| |] l2]; cbn [cbind free app fst snd] in *; rewrite ?app_nil_r in *.
  2,3: split; [apply Forall_app; now split|split; [rewrite total_app; clear - J4 B2 EQ HC Hs P1 P2; lia|discriminate]].
  destruct (B3 m2 eq_refl) as (K1 & K2 & K3). split; [apply Forall_app; now split|]. rewrite total_app.
  split; [clear - J4 B2 EQ HC Hs P1 P2; lia|]. intros st' i' E. injection E as <- <-. cbn [cells nodes]. split.
  - split; cbn [cells nodes]; [exact K1|]. assert (Z1 : forall nd', In nd' (nodes st) -> (length m0 <= proof nd' < length m2)%nat).
    { intros nd' Hn. rewrite Forall_forall in F. pose proof (F nd' Hn). lia. }
    apply Forall_app. split; [|constructor; [cbn [proof]; destruct I; lia|constructor]]. unfold set_node. apply Forall_app. split; [|constructor; [cbn [proof]; lia|]].
    + rewrite Forall_forall. intros nd' Hn. apply Z1. rewrite <- (firstn_skipn i (nodes st)). apply in_or_app. now left.
    + rewrite Forall_forall. intros nd' Hn. apply Z1. rewrite <- (firstn_skipn (S i) (nodes st)). apply in_or_app. now right.
  - unfold budget, set_node. rewrite map_app, zsum_app. pose proof (zsum_upd _ node_budget (nodes st) i nd (PNode l mid (proof nd) (Some (length (nodes st)))) Hi) as U.
    cbn [map]. unfold zsum at 2. cbn [fold_right]. change (node_budget (PNode mid r p1 (next nd))) with (split_cost (r - mid)).
    change (node_budget (PNode l mid (proof nd) (Some (length (nodes st))))) with (split_cost (mid - l)) in U. change (node_budget nd) with (split_cost (r - l)) in U.
    set (X := zsum _) in U |- *. clear - U J4 K3 EQ HC. lia.
Qed.

Definition within (st : state) (B : Z) (ops : list op) : Prop := Forall of_set ops /\ total exps ops <= B.
Lemma pass_ops : forall f st it flag N, sound st ->
  let run := c_pass f st it flag N set in
  Forall of_set (snd run) /\ total exps (snd run) <= budget (nodes st) /\
  forall st' b, fst run = Ret (st', b) -> sound st' /\ total exps (snd run) + budget (nodes st') <= budget (nodes st).
Proof.
  assert (Z0 : forall (st : state), Forall of_set [] /\ total exps [] <= budget (nodes st)) by (intros st; split; [constructor|rewrite total_nil; apply budget_nonneg]).
  induction f as [|f IH]; intros st it flag N S; cbv zeta; cbn [c_pass]; (destruct it as [i|]; cbn [free fst snd];
    [|destruct (Z0 st); split; [assumption|split; [assumption|intros st' b E; injection E as <- <-; split; [exact S|rewrite total_nil; lia]]]]).
  - destruct (Z0 st). repeat split; auto; discriminate.
  - unfold free in |- *. destruct (nth_error (nodes st) i) as [nd|] eqn:Hi; cbn [deref cbind fst snd]; [|destruct (Z0 st); repeat split; auto; discriminate].
    destruct (Nat.leb_spec (right nd - IterModel.left nd) 1) as [Hs|Hs].
    + specialize (IH st (next nd) flag N S). cbv zeta in IH. destruct (c_pass f st (next nd) flag N set) as [o l]. cbn [app fst snd] in *. exact IH.
    + pose proof (insert_ops st i N nd S Hi Hs) as (A1 & A2 & A3). cbv zeta in A1, A2, A3.
      destruct (c_insertNewProofNode st i N set) as [[[st1 i1]| |] l1]; cbn [cbind app fst snd] in *; [|repeat split; auto; discriminate..].
      destruct (A3 st1 i1 eq_refl) as (S1 & T1). specialize (IH st1 i1 true N S1). cbv zeta in IH. destruct IH as (I1 & I2 & I3).
      destruct (c_pass f st1 i1 true N set) as [o l]. cbn [app fst snd] in *. rewrite total_app. split; [apply Forall_app; now split|]. split; [lia|].
      intros st' b E. destruct (I3 st' b E). split; [assumption|lia].
Qed.
Lemma passes_ops : forall f st h N, sound st ->
  let run := c_passes f st h N set in Forall of_set (snd run) /\ total exps (snd run) <= budget (nodes st).
Proof.
  induction f as [|f IH]; intros st h N S; cbv zeta; cbn [c_passes].
  - cbn [free fst snd]. split; [constructor|rewrite total_nil; apply budget_nonneg].
  - pose proof (pass_ops (Datatypes.S (length set)) st (Some h) false N S) as (A1 & A2 & A3). cbv zeta in A1, A2, A3.
    destruct (c_pass (Datatypes.S (length set)) st (Some h) false N set) as [[[st1 [|]]| |] l1]; cbn [cbind app free fst snd] in *; [| |now split..].
    + destruct (A3 st1 true eq_refl) as (S1 & T1). specialize (IH st1 h N S1). cbv zeta in IH. destruct IH as [I1 I2]. destruct (c_passes f st1 h N set) as [o l]. cbn [app fst snd] in *.
      rewrite total_app. split; [apply Forall_app; now split|lia].
    + rewrite app_nil_r. now split.
Qed.
Lemma iter_ops : forall base N, let run := c_ProveMembershipIter m0 base N set in
  Forall of_set (snd run) /\ total exps (snd run) <= split_cost (length set).
Proof.
  intros base N. cbv zeta. assert (D : set = [] \/ set <> []) by (clear; destruct set; [now left|right; discriminate]). destruct D as [D|D].
  { rewrite D. cbn [c_ProveMembershipIter free snd]. split; [constructor|rewrite total_nil; apply split_cost_nonneg]. }
  rewrite (c_Iter_ne _ _ _ _ D). cbn [alloc].
  assert (S0 : sound (State (m0 ++ [base]) [PNode 0 (length set) (length m0) None])).
  { split; cbn [cells nodes]; [split; [rewrite app_length; lia|intros; now rewrite nth_error_app1 by lia]|]. constructor; [cbn [proof]; rewrite app_length; cbn [length]; lia|constructor]. }
  pose proof (passes_ops (Datatypes.S (length set)) _ 0%nat N S0) as [A1 A2]. cbv zeta in A1, A2.
  replace (budget _) with (split_cost (length set)) in A2 by (cbn [nodes]; unfold budget, zsum, node_budget; cbn [map fold_right right IterModel.left]; rewrite Nat.sub_0_r; lia).
  destruct (c_passes _ _ _ _ _) as [[st| |] l]; cbn [cbind fst snd] in *; [|now split..].
  unfold free. destruct (collect _ _ _) as [ps| |]; cbn [cbind app snd]; rewrite !app_nil_r; now split.
Qed.
End Iter.

(** C116: ProveMembershipIter forms no integer product at all. Every exponentiation it does has one of the
    representatives as its exponent, and it does at most n·⌈log2 n⌉ of them. *)
Theorem C116_iter : forall m base N set vals b, load_all m set = Ret vals -> sized b vals ->
  let n := Z.of_nat (length set) in let run := c_ProveMembershipIter m base N set in
  fst run = ProveMembershipIter m base N set /\
  (forall o, In o (snd run) -> exists e, In e vals /\ o = Exp e) /\
  total exps (snd run) <= n * Z.log2_up n /\ total exp_bits (snd run) <= b * n * Z.log2_up n.
Proof.
  intros m base N set vals b HV Hs n run. assert (F : Forall2 (fun a v => nth_error m a = Some v) set vals).
  { clear - HV. revert vals HV. induction set as [|a s IH]; intros vals HV; cbn in HV; [injection HV as <-; constructor|].
    unfold load in HV at 1. destruct (nth_error m a) as [v|] eqn:E; [|discriminate]. cbn [deref bind] in HV. unfold load_all in IH. destruct (map_outcome (load m) s) as [vs| |]; try discriminate HV. injection HV as <-. constructor; [exact E|]. now apply IH. }
  assert (IN : forall a e, In a set -> nth_error m a = Some e -> In e vals).
  { clear - F. induction F as [|a v s vs E F IH]; intros a' e H E'; [destruct H|]. destruct H as [<-|H]; [left; congruence|right; now apply (IH a')]. }
  assert (OLD : forall a, In a set -> (a < length m)%nat).
  { clear - F. induction F as [|a v s vs E F IH]; intros a' H; [destruct H|]. destruct H as [<-|H]; [now apply nth_lt in E|now apply IH]. }
  split; [apply c_Iter_outcome|]. destruct (iter_ops m set OLD base N) as [A1 A2]. cbv zeta in A1, A2. fold run in A1, A2.
  assert (R : forall o, In o (snd run) -> exists e, In e vals /\ o = Exp e).
  { intros o Ho. rewrite Forall_forall in A1. destruct (A1 o Ho) as (a & e & H1 & H2 & ->). exists e. split; [now apply (IN a)|reflexivity]. }
  split; [exact R|]. split; [exact A2|].
  assert (W : set <> [] -> 0 <= b). { intros Hne. apply (sized_width b vals); [|exact Hs]. intros ->. inversion F. now subst set. }
  destruct set as [|a0 s]; [cbn; lia|]. specialize (W ltac:(discriminate)).
  assert (B : total exp_bits (snd run) <= b * total exps (snd run)).
  { clear A1 A2. clearbody run. destruct run as [o0 l]. cbn [snd] in *. induction l as [|o l IH]; [cbn; lia|]. rewrite !total_cons. pose proof (IH (fun o' H => R o' (or_intror H))) as Q.
    destruct (R o (or_introl eq_refl)) as (e & He & ->). cbn [exp_bits exps]. unfold sized in Hs. rewrite Forall_forall in Hs. pose proof (bit_len_small b e W (Hs e He)). lia. }
  unfold split_cost in A2. fold n in A2. nia.
Qed.

(** and it never exponentiates by more bits than ProveMembership, for the sizes of C113_lower *)
Theorem C116_cheaper : forall m base base' N N' set vals c k, load_all m set = Ret vals -> 0 < N' -> 2 <= c ->
  large c vals -> sized (c + 1) vals -> length vals = (4 ^ k)%nat ->
  let iter := snd (c_ProveMembershipIter m base N set) in let rec := snd (c_ProveMembership base' N' vals) in
  total exp_bits iter <= total exp_bits rec /\ total mul_bits iter = 0.
Proof.
  intros m base base' N N' set vals c k HV HN Hc Hl Hs Hk iter rec.
  pose proof (C116_iter m base N set vals (c + 1) HV Hs) as (_ & R & _ & B). cbv zeta in R, B. fold iter in R, B.
  pose proof (C113_lower base' N' vals c k HN ltac:(lia) Hl Hk) as [L _]. cbv zeta in L. fold rec in L.
  assert (E : length set = length vals). { clear - HV. unfold load_all in HV. revert vals HV. induction set as [|a s IH]; intros vals HV; cbn in HV; [now injection HV as <-|].
    destruct (load m a) as [v| |]; try discriminate HV. cbn [bind] in HV. destruct (map_outcome (load m) s) as [vs| |]; try discriminate HV. injection HV as <-. cbn [length]. f_equal. now apply IH. }
  assert (LG : Z.log2_up (Z.of_nat (4 ^ k)) = 2 * Z.of_nat k).
  { replace (Z.of_nat (4 ^ k)) with (2 ^ (2 * Z.of_nat k)); [now apply Z.log2_up_pow2; lia|]. rewrite Z.pow_mul_r by lia. change (2 ^ 2) with 4. clear. induction k as [|k IH]; [reflexivity|].
    rewrite Nat2Z.inj_succ, Z.pow_succ_r, IH by lia. cbn [Nat.pow]. lia. }
  rewrite E, Hk, LG in B. rewrite Hk in L. split.
  - assert ((c + 1) * Z.of_nat (4 ^ k) * (2 * Z.of_nat k) <= 3 * c * Z.of_nat (4 ^ k) * Z.of_nat k); [|lia].
    set (x := Z.of_nat (4 ^ k)) in *. assert (0 <= x) by (subst x; lia). set (y := Z.of_nat k) in *. assert (0 <= y) by (subst y; lia). clearbody x y. clear - H H0 Hc.
    assert (0 <= x * y) by nia. replace ((c + 1) * x * (2 * y)) with ((2 * c + 2) * (x * y)) by ring. replace (3 * c * x * y) with (3 * c * (x * y)) by ring. nia.
  - clear - R. clearbody iter. induction iter as [|o l IH]; [reflexivity|]. rewrite total_cons. destruct (R o (or_introl eq_refl)) as (e & _ & ->). cbn [mul_bits]. rewrite IH; [reflexivity|]. intros o' H. apply R. now right.
Qed.

(** five representatives stored in shuffled cells; and eight, where the bound n·⌈log2 n⌉ is met *)
Example C116_case :
  let m := [35; 7; 3; 13; 5; 11] in let set := [2; 4; 1; 5; 3]%nat in let run := c_ProveMembershipIter m 2 0%nat set in
  load_all m set = Ret [3; 5; 7; 11; 13] /\ sized 4 [3; 5; 7; 11; 13] /\
  (total exps (snd run), total exp_bits (snd run), total muls (snd run)) = (12, 40, 0) /\
  (exists m', fst run = Ret (m', [6; 8; 7; 9; 10]%nat) /\ load_all m' [6; 8; 7; 9; 10]%nat = ProveMembership 2 35 [3; 5; 7; 11; 13]) /\
  total exps (snd (c_ProveMembershipIter [35; 3] 2 0%nat (repeat 1%nat 8))) = 8 * Z.log2_up 8 /\
  (let vals := [4; 5; 6; 7] in large 2 vals /\ sized 3 vals /\ length vals = (4 ^ 1)%nat /\
   total exp_bits (snd (c_ProveMembershipIter (35 :: vals) 2 0%nat [1; 2; 3; 4]%nat)) = 24 /\ total exp_bits (snd (c_ProveMembership 2 35 vals)) = 31).
Proof.
  repeat split; try (repeat constructor; vm_compute; (discriminate || reflexivity)); try reflexivity.
  eexists. split; vm_compute; reflexivity.
Qed.
Print Assumptions C116_iter.
Print Assumptions C116_cheaper.
