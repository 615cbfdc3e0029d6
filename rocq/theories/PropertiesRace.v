(** Theorems for property C126 (the two goroutines of proveMembershipIter and the memory they share). *)
From Coq Require Import ZArith Bool Lia List.
From Verif Require Import GoBig GoBigFacts Spec AccModel AccFacts IterModel ListUpd ParIterModel RaceModel RaceProofs RaceSim.
Import ListNotations.
Local Open Scope nat_scope.

(** two lists of accesses conflict: the same place, and one of them writes *)
Definition conflict (a b : list access) : Prop := exists x p q, In (x, p) a /\ In (x, q) b /\ (p = Wr \/ q = Wr).
(** the numbers given to the call are there *)
Definition given (set : list addr) (Np base : addr) (m : mem) : Prop := forall a, In a (base :: Np :: set) -> a < length m.

(** whatever the schedule and whatever the rest of the program does, the next access of one goroutine never conflicts
    with the next access of the other *)
Theorem C126_no_race : forall set Np base left right m k s, given set Np base m -> reached set Np base left right m k s ->
  ~ conflict (maccess Np s) (haccess Np s).
Proof.
  intros set Np base left right m k s G R (x & p & q & A & B & W).
  destruct (reached_inv _ _ _ _ _ _ _ _ G R) as [S EL CU C461 HP C407 C473].
  assert (NI : r_hp s <> H405 /\ r_hp s <> H409) by (unfold haccess in B; split; intros E; rewrite E in B; exact B).
  destruct HP as [[HP|HP]|(i & HP)]; [tauto|tauto|].
  assert (HW : q = Wr -> exists a, In a (hwork (r_hp s)) /\ x = LBig a).
  { intros ->. unfold haccess in B. destruct (r_hp s) as [|l r|l r j|l r a|c|]; cbn in B; try tauto; try (destruct B as [B|[]]; discriminate).
    destruct a as [g part|c g part|c [|kk part]|c e part]; cbn in B |- *; repeat (destruct B as [B|B]; [try discriminate; injection B as <-; now eauto|]); destruct B. }
  assert (MW : p = Wr -> (exists a, In a (mwork (r_pc s)) /\ x = LBig a) \/ (exists f, x = LNode i f /\ f <> FProof) \/ exists f, x = LNode (length (r_nodes s)) f).
  { intros ->. unfold maccess in A. destruct (r_pc s); cbn [window cur] in HP; try discriminate; injection HP as ->; cbn in A; try tauto;
      try (destruct A as [A|[]]; discriminate); try (destruct A as [A|[]]; injection A as <-; right; left; eexists; split; [reflexivity|discriminate]).
    - destruct a as [g part|c g part|c [|kk part]|c e part]; cbn in A |- *; left; repeat (destruct A as [A|A]; [try discriminate; injection A as <-; now eauto|]); destruct A.
    - right. right. repeat (destruct A as [A|A]; [try discriminate; injection A as <-; now eauto|]). destruct A. }
  assert (HA : (exists a, x = LBig a /\ (In a (hwork (r_hp s)) \/ In a (hheld (r_hp s) ++ Np :: set))) \/ x = LIter \/ x = LNode i FProof \/ exists n, x = LSlot n).
  { unfold haccess in B. destruct (r_hp s) as [|l r|l r j|l r a|c|] eqn:Eh; cbn in B; try tauto.
    - destruct B as [B|[]]. injection B as <- <-. tauto.
    - destruct B as [B|[]]. injection B as <- <-. right. right. left. f_equal.
      assert (Ci : cur (r_pc s) = Some i) by (destruct (r_pc s); cbn [window cur] in *; congruence).
      destruct (CU i Ci) as (I1 & _). specialize (C407 l r j eq_refl). congruence.
    - cbn [hheld hwork helem] in *. destruct a as [g part|c g part|c [|kk part]|c e part]; cbn [aheld awork aelem aaccess] in *; cbn in B.
      + destruct B.
      + destruct B as [B|[B|[]]]; injection B as <- <-; left; eexists; (split; [reflexivity|]); cbn; tauto.
      + destruct B.
      + destruct B as [B|[]]; injection B as <- <-; eauto.
      + destruct B as [B|[B|[B|[B|[]]]]]; injection B as <- <-; left; eexists; (split; [reflexivity|]); cbn; try tauto.
        right. right. apply EL. rewrite in_app_iff. right. now left. }
  destruct S as (S1 & S2 & S3 & S4 & S5).
  assert (DJ : forall a, In a (mwork (r_pc s)) -> In a (hwork (r_hp s)) -> False).
  { intros a X Y. apply in_split in X. destruct X as (u & v & X). rewrite X, <- app_assoc in S2. cbn [app] in S2. apply NoDup_remove_2 in S2. apply S2. rewrite !in_app_iff. tauto. }
  destruct W as [W|W].
  - destruct (MW W) as [(a & X & ->)|[(f & -> & F)|(f & ->)]].
    + destruct HA as [(a' & E & [Y|Y])|[E|[E|(n & E)]]]; try discriminate; injection E as <-.
      * eauto.
      * apply (S4 a). { rewrite in_app_iff. now left. } rewrite !in_app_iff in *. cbn [In] in *. tauto.
    + destruct HA as [(a' & E & _)|[E|[E|(n & E)]]]; try discriminate. injection E as ->. contradiction.
    + destruct HA as [(a' & E & _)|[E|[E|(n & E)]]]; try discriminate. injection E as E _.
      assert (Ci : cur (r_pc s) = Some i) by (destruct (r_pc s); cbn [window cur] in *; congruence). destruct (CU i Ci). lia.
  - destruct (HW W) as (a & X & ->). unfold maccess in A.
    assert (MA : In a (mwork (r_pc s)) \/ In a (mheld (r_pc s) ++ Np :: set)).
    { destruct (r_pc s); cbn [window cur] in HP; try discriminate; cbn in A; try tauto; try (destruct A as [A|[]]; discriminate); try (intuition discriminate).
      cbn [mwork mheld melem] in *. destruct a0 as [g part|c g part|c [|kk part]|c e part]; cbn [aheld awork aelem aaccess] in *; cbn in A.
      - destruct A.
      - destruct A as [A|[A|[]]]; injection A as <- <-; cbn; tauto.
      - destruct A.
      - destruct A as [A|[]]; discriminate.
      - destruct A as [A|[A|[A|[A|[]]]]]; injection A as <- <-; cbn; try tauto. right. right. apply EL. rewrite in_app_iff. left. now left. }
    destruct MA as [MA|MA]; [eauto|]. apply (S4 a). { rewrite in_app_iff. now right. } rewrite !in_app_iff in *. cbn [In] in *. tauto.
Qed.

(** ** the lists of accesses are the accesses *)
Inductive content := CNode (p : option nat) | CFlag (b : bool) | CInt (n : nat) | CBig (a : addr) | CNum (v : Z).
Definition field_of (nd : rnode) (f : field) : content :=
  match f with FLeft => CInt (n_left nd) | FRight => CInt (n_right nd) | FProof => CBig (n_proof nd) | FNext => CNode (n_next nd) end.
(** what a place holds; nothing when it does not exist yet *)
Definition cell (set : list addr) (s : R) (x : loc) : option content :=
  match x with
  | LIter => Some (CNode (r_iter s))
  | LFlag => Some (CFlag (r_flag s))
  | LNode n f => option_map (fun nd => field_of nd f) (nth_error (r_nodes s) n)
  | LBig a => option_map CNum (nth_error (r_mem s) a)
  | LSlot k => option_map CBig (nth_error set k)
  end.
Lemma nth_store : forall (m : mem) a b v x, b <> a -> nth_error m b = Some x -> nth_error (store m a v) b = Some x.
Proof.
  intros m a b v x H E. unfold store. assert (B : b < length m) by (apply nth_error_Some; congruence).
  destruct (Nat.lt_ge_cases b a) as [L|L].
  - rewrite nth_error_app1 by (rewrite firstn_length; lia). rewrite <- E. rewrite <- (firstn_skipn a m) at 2. rewrite nth_error_app1 by (rewrite firstn_length; lia). reflexivity.
  - rewrite nth_error_app2 by (rewrite firstn_length; lia). rewrite firstn_length, Nat.min_l by lia. destruct (b - a) as [|d] eqn:Q; [lia|]. cbn [nth_error].
    rewrite <- E. rewrite <- (firstn_skipn (S a) m) at 2. rewrite nth_error_app2 by (rewrite firstn_length; lia). f_equal. rewrite firstn_length. lia.
Qed.
Lemma astep_cell : forall set Np m own a m' own' a' b x, astep set Np m own a = Some (Ret (m', own', a')) -> nth_error m b = Some x ->
  nth_error m' b = Some x \/ In (LBig b, Wr) (aaccess Np a).
Proof.
  intros set Np m own a m' own' a' b x H E. destruct a as [g part|c g part|c [|k part]|c e part]; cbn [astep aaccess] in *; try discriminate.
  - cbn [alloc] in H. injection H as <- _ _. left. rewrite nth_error_app1; [exact E|]. apply nth_error_Some. congruence.
  - destruct (load m g); try discriminate. cbn [bind] in H. injection H as <- _ _. destruct (Nat.eq_dec b c) as [->|N]; [right; right; now left|]. left. now apply nth_store.
  - destruct (go_index set k); try discriminate. cbn [bind] in H. injection H as <- _ _. now left.
  - destruct (load m c); try discriminate. cbn [bind] in H. destruct (load m e); try discriminate. cbn [bind] in H. destruct (load m Np); try discriminate. cbn [bind] in H.
    injection H as <- _ _. destruct (Nat.eq_dec b c) as [->|N]; [right; cbn; tauto|]. left. now apply nth_store.
Qed.
(** a change of one field *)
Lemma upd_cell : forall ns i nd nd' n g x fl, nth_error ns i = Some nd -> (forall g, g <> fl -> field_of nd' g = field_of nd g) ->
  option_map (fun d => field_of d g) (nth_error ns n) = Some x ->
  option_map (fun d => field_of d g) (nth_error (upd ns i nd') n) = Some x \/ (n = i /\ g = fl).
Proof.
  intros ns i nd nd' n g x fl E F H. destruct (Nat.eq_dec n i) as [->|D].
  - destruct (match g, fl with FLeft, FLeft | FRight, FRight | FProof, FProof | FNext, FNext => true | _, _ => false end) eqn:Q.
    + right. split; [reflexivity|]. destruct g, fl; try discriminate; reflexivity.
    + left. rewrite nth_upd_eq by (apply nth_error_Some; congruence). rewrite E in H. cbn [option_map] in *. rewrite F; [exact H|]. intros ->. destruct fl; discriminate.
  - left. rewrite nth_upd_neq by auto. exact H.
Qed.

Ltac recs := cbn [r_mem r_own r_nodes r_iter r_flag r_pc r_hp r_cancelled goto put_iter put_flag put_nodes put_mem hgoto hput_mem] in *.
(** a step changes nothing but the places that the list says it writes *)
Theorem C126_writes : forall set Np s s' x v, cell set s x = Some v ->
  (mstep set Np s = Some (Ret s') -> cell set s' x = Some v \/ In (x, Wr) (maccess Np s)) /\
  (hstep set Np s = Some (Ret s') -> cell set s' x = Some v \/ In (x, Wr) (haccess Np s)) /\
  (csend s = Some s' \/ citer s = Some s' \/ cdone s = Some s' -> cell set s' x = Some v).
Proof.
  intros set Np [m own ns it fl pc hp cn] s' x v C. split; [|split].
  - intros H. unfold mstep, maccess, node in *. recs.
    destruct pc; cbn [In] in *; try discriminate;
      try (injection H as <-; left; exact C);
      try (destruct it as [ii|]; [injection H as <-; left; exact C|discriminate]);
      try (destruct (nth_error ns i) as [nd|]; [|discriminate]; cbn [deref bind] in H; injection H as <-; left; exact C);
      try (destruct (nth_error ns n) as [nd|]; [|discriminate]; cbn [deref bind] in H; injection H as <-; left; exact C);
      try (injection H as <-; destruct x; try (left; exact C); right; tauto).
    + destruct (nth_error ns i) as [nd|]; [|discriminate]. cbn [deref bind] in H. destruct (positions set l (middle l r)); try discriminate. cbn [bind] in H. injection H as <-. now left.
    + destruct (result_of a); [injection H as <-; now left|]. destruct (astep set Np m own a) as [o|] eqn:E; [|discriminate]. destruct o as [[[m' own'] a']| |]; try discriminate.
      injection H as <-. destruct x; try (left; exact C). cbn [cell] in C |- *. recs. destruct (nth_error m a0) as [z|] eqn:Q; [|discriminate].
      destruct (astep_cell _ _ _ _ _ _ _ _ _ _ E Q) as [->|W]; [now left|now right].
    + injection H as <-. left. destruct x; try exact C. cbn [cell] in C |- *. recs. rewrite nth_error_app1; [exact C|]. apply nth_error_Some. intros Q. rewrite Q in C. discriminate.
    + destruct (nth_error ns i) as [nd|] eqn:E; [|discriminate]. cbn [deref bind] in H. injection H as <-. destruct x; try (left; exact C). cbn [cell] in C |- *. recs.
      destruct (upd_cell ns i nd (set_left nd l) n0 f v FLeft E) as [Q|(-> & ->)]; auto. intros []; intros; try reflexivity; contradiction.
    + destruct (nth_error ns i) as [nd|] eqn:E; [|discriminate]. cbn [deref bind] in H. injection H as <-. destruct x; try (left; exact C). cbn [cell] in C |- *. recs.
      destruct (upd_cell ns i nd (set_right nd (middle l r)) n0 f v FRight E) as [Q|(-> & ->)]; auto. intros []; intros; try reflexivity; contradiction.
    + destruct (nth_error ns i) as [nd|] eqn:E; [|discriminate]. cbn [deref bind] in H. injection H as <-. destruct x; try (left; exact C). cbn [cell] in C |- *. recs.
      destruct (upd_cell ns i nd (set_proof nd v0) n0 f v FProof E) as [Q|(-> & ->)]; auto. intros []; intros; try reflexivity; contradiction.
    + destruct (nth_error ns i) as [nd|] eqn:E; [|discriminate]. cbn [deref bind] in H. injection H as <-. destruct x; try (left; exact C). cbn [cell] in C |- *. recs.
      destruct (upd_cell ns i nd (set_next nd (Some n)) n0 f v FNext E) as [Q|(-> & ->)]; auto. intros []; intros; try reflexivity; contradiction.
  - intros H. unfold hstep, haccess, node in *. recs. destruct hp; try discriminate.
    + destruct it; [injection H as <-; now left|discriminate].
    + destruct (nth_error ns i) as [nd|]; [|discriminate]. cbn [deref bind] in H. destruct (positions set l r); try discriminate. cbn [bind] in H. injection H as <-. now left.
    + destruct (result_of a); [injection H as <-; now left|]. destruct (astep set Np m own a) as [o|] eqn:E; [|discriminate]. destruct o as [[[m' own'] a']| |]; try discriminate.
      injection H as <-. destruct x; try (left; exact C). cbn [cell] in C |- *. recs. destruct (nth_error m a0) as [z|] eqn:Q; [|discriminate].
      destruct (astep_cell _ _ _ _ _ _ _ _ _ _ E Q) as [->|W]; [now left|now right].
  - intros [H|[H|H]].
    + unfold csend in H. recs. destruct pc; try discriminate. destruct hp; try discriminate. injection H as <-. exact C.
    + unfold citer in H. recs. destruct pc; try discriminate. destruct hp; try discriminate. injection H as <-. exact C.
    + unfold cdone in H. recs. destruct hp; try discriminate. destruct cn; try discriminate. injection H as <-. exact C.
Qed.

Lemma store_there : forall (m : mem) c v, nth_error (store m c v) c = if c <=? length m then Some v else None.
Proof.
  intros m c v. unfold store. destruct (Nat.leb_spec c (length m)) as [L|L].
  - rewrite nth_error_app2; rewrite firstn_length, Nat.min_l by lia; [|lia]. now rewrite Nat.sub_diag.
  - apply nth_error_None. rewrite app_length, firstn_length. cbn [length]. rewrite skipn_length. lia.
Qed.
Lemma map_eq : forall A B (f : A -> B) o o', option_map f o = option_map f o' -> (forall a b, f a = f b -> a = b) -> o = o'.
Proof. intros A B f [a|] [b|] H I; cbn in H; try discriminate; [f_equal; apply I; congruence|reflexivity]. Qed.
Lemma num_eq : forall (m m' : mem) a, option_map CNum (nth_error m a) = option_map CNum (nth_error m' a) -> nth_error m a = nth_error m' a.
Proof. intros m m' a H. eapply map_eq; [exact H|]. intros x y [= ->]. reflexivity. Qed.
Lemma acc_reads : forall set set2 Np s t own own2 a m' own' a', length (r_mem s) = length (r_mem t) ->
  (forall x, In (x, Rd) (aaccess Np a) -> cell set s x = cell set2 t x) ->
  astep set Np (r_mem s) own a = Some (Ret (m', own', a')) ->
  exists m2 own2', astep set2 Np (r_mem t) own2 a = Some (Ret (m2, own2', a')) /\
    forall c, In (LBig c, Wr) (aaccess Np a) -> nth_error m' c = nth_error m2 c.
Proof.
  intros set set2 Np s t own own2 a m' own' a' L Rs H. destruct a as [g part|c g part|c [|k part]|c e part]; cbn [astep aaccess] in *; try discriminate.
  - cbn [alloc] in *. injection H as <- <- <-. rewrite L. do 2 eexists. split; [reflexivity|]. intros c [].
  - pose proof (num_eq _ _ _ (Rs (LBig g) ltac:(now left))) as E. unfold load in *. rewrite <- E. destruct (nth_error (r_mem s) g) as [z|]; [|discriminate]. cbn [deref bind] in *.
    injection H as <- <- <-. do 2 eexists. split; [reflexivity|]. intros c0 [X|[X|[]]]; [discriminate|]. injection X as <-. rewrite !store_there, L. reflexivity.
  - specialize (Rs (LSlot k) ltac:(now left)). cbn [cell] in Rs. apply map_eq in Rs; [|intros x y [= ->]; reflexivity]. unfold go_index in *. rewrite <- Rs.
    destruct (nth_error set k) as [z|]; [|discriminate]. cbn [deref bind] in *. injection H as <- <- <-. do 2 eexists. split; [reflexivity|]. intros c0 [X|[]]. discriminate.
  - pose proof (num_eq _ _ _ (Rs (LBig c) ltac:(now left))) as E1. pose proof (num_eq _ _ _ (Rs (LBig e) ltac:(right; now left))) as E2.
    pose proof (num_eq _ _ _ (Rs (LBig Np) ltac:(right; right; now left))) as E3. unfold load in *. rewrite <- E1, <- E2, <- E3.
    destruct (nth_error (r_mem s) c) as [z1|]; [|discriminate]. destruct (nth_error (r_mem s) e) as [z2|]; [|discriminate]. destruct (nth_error (r_mem s) Np) as [z3|]; [|discriminate].
    cbn [deref bind] in *. injection H as <- <- <-. do 2 eexists. split; [reflexivity|]. intros c0 [X|[X|[X|[X|[]]]]]; try discriminate. injection X as <-. rewrite !store_there, L. reflexivity.
Qed.
Lemma field_eq : forall set set2 s t n f, cell set s (LNode n f) = cell set2 t (LNode n f) -> forall nd, nth_error (r_nodes s) n = Some nd ->
  exists nd2, nth_error (r_nodes t) n = Some nd2 /\ field_of nd f = field_of nd2 f.
Proof. intros set set2 s t n f H nd E. cbn [cell] in H. rewrite E in H. cbn [option_map] in H. destruct (nth_error (r_nodes t) n) as [nd2|]; [|discriminate]. exists nd2. cbn [option_map] in H. split; congruence. Qed.
Lemma node_too : forall (ns ns2 : list rnode) i nd, length ns = length ns2 -> nth_error ns i = Some nd -> exists nd2, nth_error ns2 i = Some nd2.
Proof. intros ns ns2 i nd L E. destruct (nth_error ns2 i) eqn:Q; [eauto|]. apply nth_error_None in Q. assert (i < length ns) by (apply nth_error_Some; congruence). lia. Qed.

(** a step depends on nothing but the places that the list says it reads (and on where the next new number and node
    go): in two states that agree there it goes to the same place and writes the same *)
Theorem C126_reads : forall set set2 Np s t s', length set = length set2 -> length (r_mem s) = length (r_mem t) -> length (r_nodes s) = length (r_nodes t) ->
  (r_pc s = r_pc t -> (forall x, In (x, Rd) (maccess Np s) -> cell set s x = cell set2 t x) -> mstep set Np s = Some (Ret s') ->
   exists t', mstep set2 Np t = Some (Ret t') /\ r_pc s' = r_pc t' /\ forall x, In (x, Wr) (maccess Np s) -> cell set s' x = cell set2 t' x) /\
  (r_hp s = r_hp t -> (forall x, In (x, Rd) (haccess Np s) -> cell set s x = cell set2 t x) -> hstep set Np s = Some (Ret s') ->
   exists t', hstep set2 Np t = Some (Ret t') /\ r_hp s' = r_hp t' /\ forall x, In (x, Wr) (haccess Np s) -> cell set s' x = cell set2 t' x).
Proof.
  intros set set2 Np s t s' Ls Lm Ln. split.
  - intros Ep Rs H. unfold mstep, maccess, node in *. rewrite <- Ep. destruct (r_pc s) eqn:Epc; try discriminate.
    all: try (specialize (Rs LIter ltac:(now left)); cbn [cell] in Rs; injection Rs as Rs; rewrite <- Rs; destruct (r_iter s) as [j|]; [|discriminate]; cbn [deref bind] in *;
              injection H as <-; eexists; split; [reflexivity|]; split; [reflexivity|]; intros x X; cbn [In] in X; intuition discriminate).
    all: try (specialize (Rs LIter ltac:(now left)); cbn [cell] in Rs; injection Rs as Rs; rewrite <- Rs;
              injection H as <-; eexists; split; [reflexivity|]; split; [reflexivity|]; intros x X; cbn [In] in X; intuition discriminate).
    all: try (injection H as <-; eexists; split; [reflexivity|]; split; [reflexivity|]; intros x X; cbn [In] in X; destruct X as [X|[]]; injection X as <-; reflexivity).
    all: try (destruct (nth_error (r_nodes s) i) as [nd|] eqn:E; [|discriminate]; destruct (field_eq _ _ _ _ _ _ (Rs _ (or_introl eq_refl)) nd E) as (nd2 & E2 & F); rewrite E2; cbn [deref bind field_of] in *; injection F as F;
              try rewrite <- F; injection H as <-; eexists; split; [reflexivity|]; split; [reflexivity|]; intros x X; cbn [In] in X; intuition discriminate).
    + specialize (Rs LFlag ltac:(now left)); cbn [cell] in Rs; injection Rs as Rs; rewrite <- Rs. injection H as <-. eexists. split; [reflexivity|]. split; [reflexivity|]. intros x X. cbn [In] in X. intuition discriminate.
    + destruct (nth_error (r_nodes s) i) as [nd|] eqn:E; [|discriminate]. destruct (field_eq _ _ _ _ _ _ (Rs _ (or_introl eq_refl)) nd E) as (nd2 & E2 & F). rewrite E2. cbn [deref bind field_of] in *. injection F as F.
      unfold positions in *. rewrite <- Ls, <- F. destruct (go_slice (seq 0 (length set)) l (middle l r)); try discriminate. cbn [bind] in *. injection H as <-.
      eexists. split; [reflexivity|]. split; [reflexivity|]. intros x X. cbn [In] in X. intuition discriminate.
    + destruct (result_of a) eqn:Ra.
      * injection H as <-. eexists. split; [reflexivity|]. split; [reflexivity|]. intros x X. destruct a as [g p|c g p|c [|kk p]|c e p]; try discriminate. destruct X.
      * destruct (astep set Np (r_mem s) (r_own s) a) as [o|] eqn:Ea; [|discriminate]. destruct o as [[[m' own'] a']| |]; try discriminate.
        destruct (acc_reads _ _ _ _ _ _ (r_own t) _ _ _ _ Lm Rs Ea) as (m2 & own2' & -> & W). cbn [bind] in *. injection H as <-. eexists. split; [reflexivity|]. split; [reflexivity|].
        intros x X. destruct x; try (exfalso; destruct a as [g p|c g p|c [|kk p]|c e p]; cbn in X; intuition discriminate). cbn [cell r_mem put_mem]. now rewrite W.
    + injection H as <-. eexists. split; [reflexivity|]. cbn [put_nodes r_pc]. rewrite Ln. split; [reflexivity|]. intros x X. cbn [In] in X.
      destruct X as [X|[X|[X|[X|[]]]]]; injection X as <-; cbn [cell put_nodes r_nodes]; rewrite !nth_error_app2, Ln, Nat.sub_diag by lia; reflexivity.
    + destruct (nth_error (r_nodes s) i) as [nd|] eqn:E; [|discriminate]. destruct (node_too _ _ _ _ Ln E) as (nd2 & E2). rewrite E2. cbn [deref bind] in *. injection H as <-. eexists. split; [reflexivity|].
      split; [reflexivity|]. intros x [X|[]]. injection X as <-. cbn [cell put_nodes r_nodes]. rewrite !nth_upd_eq by (apply nth_error_Some; congruence). reflexivity.
    + destruct (nth_error (r_nodes s) i) as [nd|] eqn:E; [|discriminate]. destruct (node_too _ _ _ _ Ln E) as (nd2 & E2). rewrite E2. cbn [deref bind] in *. injection H as <-. eexists. split; [reflexivity|].
      split; [reflexivity|]. intros x [X|[]]. injection X as <-. cbn [cell put_nodes r_nodes]. rewrite !nth_upd_eq by (apply nth_error_Some; congruence). reflexivity.
    + destruct (nth_error (r_nodes s) i) as [nd|] eqn:E; [|discriminate]. destruct (node_too _ _ _ _ Ln E) as (nd2 & E2). rewrite E2. cbn [deref bind] in *. injection H as <-. eexists. split; [reflexivity|].
      split; [reflexivity|]. intros x [X|[]]. injection X as <-. cbn [cell put_nodes r_nodes]. rewrite !nth_upd_eq by (apply nth_error_Some; congruence). reflexivity.
    + destruct (nth_error (r_nodes s) i) as [nd|] eqn:E; [|discriminate]. destruct (node_too _ _ _ _ Ln E) as (nd2 & E2). rewrite E2. cbn [deref bind] in *. injection H as <-. eexists. split; [reflexivity|].
      split; [reflexivity|]. intros x [X|[]]. injection X as <-. cbn [cell put_nodes r_nodes]. rewrite !nth_upd_eq by (apply nth_error_Some; congruence). reflexivity.
    + destruct (nth_error (r_nodes s) n) as [nd|] eqn:E; [|discriminate]; destruct (field_eq _ _ _ _ _ _ (Rs _ (or_introl eq_refl)) nd E) as (nd2 & E2 & F); rewrite E2; cbn [deref bind field_of] in *; injection F as F.
      rewrite <- F. injection H as <-; eexists; split; [reflexivity|]; split; [reflexivity|]; intros x X; cbn [In] in X; intuition discriminate.
    + injection H as <-. eexists. split; [reflexivity|]. split; [reflexivity|]. intros x [].
  - intros Ep Rs H. unfold hstep, haccess, node in *. rewrite <- Ep. destruct (r_hp s) eqn:Epc; try discriminate.
    + specialize (Rs LIter ltac:(now left)); cbn [cell] in Rs; injection Rs as Rs; rewrite <- Rs; destruct (r_iter s) as [j|]; [|discriminate]; cbn [deref bind] in *;
        injection H as <-; eexists; split; [reflexivity|]; split; [reflexivity|]; intros x X; cbn [In] in X; intuition discriminate.
    + destruct (nth_error (r_nodes s) i) as [nd|] eqn:E; [|discriminate]. destruct (field_eq _ _ _ _ _ _ (Rs _ (or_introl eq_refl)) nd E) as (nd2 & E2 & F). rewrite E2. cbn [deref bind field_of] in *. injection F as F.
      unfold positions in *. rewrite <- Ls, <- F. destruct (go_slice (seq 0 (length set)) l r); try discriminate. cbn [bind] in *. injection H as <-.
      eexists. split; [reflexivity|]. split; [reflexivity|]. intros x X. cbn [In] in X. intuition discriminate.
    + destruct (result_of a) eqn:Ra.
      * injection H as <-. eexists. split; [reflexivity|]. split; [reflexivity|]. intros x X. destruct a as [g p|c g p|c [|kk p]|c e p]; try discriminate. destruct X.
      * destruct (astep set Np (r_mem s) (r_own s) a) as [o|] eqn:Ea; [|discriminate]. destruct o as [[[m' own'] a']| |]; try discriminate.
        destruct (acc_reads _ _ _ _ _ _ (r_own t) _ _ _ _ Lm Rs Ea) as (m2 & own2' & -> & W). cbn [bind] in *. injection H as <-. eexists. split; [reflexivity|]. split; [reflexivity|].
        intros x X. destruct x; try (exfalso; destruct a as [g p|c g p|c [|kk p]|c e p]; cbn in X; intuition discriminate). cbn [cell r_mem hput_mem]. now rewrite W.
Qed.

Lemma nth_first : forall A k n (q : list A), k < n -> nth_error (firstn n q) k = nth_error q k.
Proof. intros A k. induction k as [|k IH]; intros [|n] [|x q] H; cbn; try lia; try reflexivity. apply IH. lia. Qed.

(** ** what is written, and what is returned *)
(** the two goroutines write iter, finishFlag, list nodes, and numbers they made themselves; the numbers they are given
    are not among these, nor are the elements of the slice *)
Theorem C126_footprint : forall set Np base left right m k s, given set Np base m -> reached set Np base left right m k s ->
  (forall a, In a (r_own s) -> ~ In a (base :: Np :: set)) /\
  forall x, In (x, Wr) (maccess Np s ++ haccess Np s) -> match x with LBig a => In a (r_own s) | LSlot _ => False | _ => True end.
Proof.
  intros set Np base left right m k s G R. destruct (reached_inv _ _ _ _ _ _ _ _ G R) as [(S1 & S2 & S3 & S4 & S5) EL CU C461 HP C407 C473].
  split; [exact S5|]. intros x X. rewrite in_app_iff in X.
  assert (AW : forall a, In (x, Wr) (aaccess Np a) -> exists c, x = LBig c /\ In c (awork a)).
  { intros a A. destruct a as [g p|c g p|c [|kk p]|c e p]; cbn in A; repeat (destruct A as [A|A]; [try discriminate; injection A as <-; exact (ex_intro _ _ (conj eq_refl (or_introl eq_refl)))|]); destruct A. }
  destruct X as [X|X].
  - unfold maccess in X. destruct (r_pc s) eqn:E; cbn [In] in X; try (repeat (destruct X as [X|X]; [try discriminate; injection X as <-; exact I|]); destruct X; fail).
    destruct (AW _ X) as (c & -> & C). apply S3. rewrite in_app_iff. left. exact C.
  - unfold haccess in X. destruct (r_hp s) eqn:E; cbn [In] in X; try (repeat (destruct X as [X|X]; [try discriminate; injection X as <-; exact I|]); destruct X; fail).
    destruct (AW _ X) as (c & -> & C). apply S3. rewrite in_app_iff. right. exact C.
Qed.

(** One access at a time, with both goroutines in any order and the rest of the program in between: the call ends,
    neither goroutine crashes, neither waits for ever (also not the helper after the return), and the numbers returned
    are the witnesses. The number at base is the generator g raised to all elements outside left..right, which is how
    ProveMembershipIterParallel starts it. *)
Theorem C126_result : forall set Np base left right m g, given set Np base m ->
  let N := nth Np m 0%Z in let vals := map (fun a => nth a m 0%Z) set in
  (0 < N)%Z -> Forall (fun x => (0 <= x)%Z) vals -> left < right <= length set ->
  nth base m 0%Z = (g ^ product (firstn left vals ++ skipn right vals) mod N)%Z ->
  (exists bound, forall k s, reached set Np base left right m k s -> k <= bound) /\
  forall k s, reached set Np base left right m k s ->
    (forall o, mstep set Np s = Some o \/ hstep set Np s = Some o -> exists s', o = Ret s') /\
    (((exists ps, r_pc s = MEnd ps) /\ r_hp s = H409) \/ exists s', pstep set Np s s') /\
    (forall ps, r_pc s = MEnd ps -> length ps = right - left /\
       forall i a, nth_error ps i = Some a -> nth a (r_mem s) 0%Z = (g ^ product (without (left + i) vals) mod N)%Z).
Proof.
  intros set Np base left right m g G N vals HN Hv Hr Hb.
  assert (A : args set Np base N vals m) by (split; [reflexivity|split; [reflexivity|exact G]]).
  assert (Lv : length vals = length set) by (unfold vals; apply map_length).
  assert (O : ParIterProofs.seg_ok g N vals (value m base) left right). { unfold value. rewrite Hb. apply seg_outside; [exact HN|exact Hv|lia]. }
  split.
  - exists (budget set left right). intros k s R. destruct (reached_sim _ _ _ _ _ _ _ HN Hv _ _ _ _ A O R) as (w & _ & _ & B). lia.
  - intros k s R. split; [|split].
    + intros o. apply (no_crash _ _ _ _ _ _ _ HN Hv _ _ _ _ _ A O R).
    + apply (progress _ _ _ _ _ _ _ HN Hv _ _ _ _ A O R).
    + intros ps E. pose proof (result _ _ _ _ _ _ _ HN Hv _ _ _ _ _ A O R E) as Q.
      assert (L : length ps = right - left). { rewrite <- (map_length (value (r_mem s))), Q, slice_length; [reflexivity|]. rewrite wit_length, Lv. lia. }
      split; [exact L|]. intros i a Ei.
      assert (X : nth_error (slice (wit g N 1 vals) left right) i = Some (nth a (r_mem s) 0%Z)) by (rewrite <- Q; exact (map_nth_error _ _ _ Ei)).
      unfold slice in X. assert (Li : i < right - left) by (rewrite <- L; apply nth_error_Some; congruence).
      rewrite nth_first in X by exact Li. rewrite ParIterProofs.nth_skipn in X. apply wit_nth in X. rewrite Z.mul_1_l in X. exact X.
Qed.

(** ** a run: three elements 2, 5, 7 modulo 101, generator 3 *)
Definition mem0 : mem := [101; 3; 2; 5; 7]%Z.
Definition C126_start : R := rstart 1 0 3 mem0.
(** true: the caller's goroutine goes first when it can *)
Definition advance (first : bool) (s : R) : option R :=
  let m := match mstep [2; 3; 4] 0 s with Some (Ret s') => Some s' | _ => None end in
  let h := match hstep [2; 3; 4] 0 s with Some (Ret s') => Some s' | _ => None end in
  match (if first then m else h), (if first then h else m) with
  | Some s', _ => Some s'
  | None, Some s' => Some s'
  | None, None => match csend s with Some s' => Some s' | None => match citer s with Some s' => Some s' | None => cdone s end end
  end.
Fixpoint drive (sched : list bool) (s : R) : R :=
  match sched with [] => s | b :: r => match advance b s with Some s' => drive r s' | None => s end end.
Lemma advance_step : forall b s s', advance b s = Some s' -> pstep [2; 3; 4] 0 s s'.
Proof.
  intros b s s' H. unfold advance in H.
  destruct (mstep [2; 3; 4] 0 s) as [[x| |]|] eqn:M; destruct (hstep [2; 3; 4] 0 s) as [[y| |]|] eqn:Hh; destruct b;
    try (injection H as <-; (now apply r_main) || (now apply r_helper));
    (destruct (csend s) eqn:C; [injection H as <-; now apply r_send|]; destruct (citer s) eqn:I; [injection H as <-; now apply r_recv|]; now apply r_done).
Qed.
Lemma drive_reached : forall sched k s, reached [2; 3; 4] 0 1 0 3 mem0 k s -> exists k', reached [2; 3; 4] 0 1 0 3 mem0 k' (drive sched s).
Proof.
  induction sched as [|b r IH]; intros k s H; [now exists k|]. cbn [drive]. destruct (advance b s) as [s'|] eqn:E; [|now exists k].
  eapply IH, re_step; [exact H|]. eapply advance_step; eauto.
Qed.
Example C126_case :
  given [2; 3; 4] 0 1 mem0 /\
  (* both goroutines are inside accumulateNew, each with a number of its own *)
  (exists k s, reached [2; 3; 4] 0 1 0 3 mem0 k s /\ maccess 0 s = [(LBig 5, Rd); (LBig 2, Rd); (LBig 0, Rd); (LBig 5, Wr)] /\
     haccess 0 s = [(LBig 6, Rd); (LBig 3, Rd); (LBig 0, Rd); (LBig 6, Wr)]) /\
  (* the end *)
  (exists k s, reached [2; 3; 4] 0 1 0 3 mem0 k s /\ exists ps, r_pc s = MEnd ps /\ r_hp s = H409 /\
     map (fun a => nth a (r_mem s) 0%Z) ps = [(3 ^ 35) mod 101; (3 ^ 14) mod 101; (3 ^ 10) mod 101]%Z).
Proof.
  split; [intros a A; cbn in *; lia|]. split.
  - destruct (drive_reached (repeat true 16 ++ repeat false 5) 0 _ (re_start _ _ _ _ _ _)) as (k & H).
    do 2 eexists. split; [exact H|]. split; vm_compute; reflexivity.
  - destruct (drive_reached (repeat true 200) 0 _ (re_start _ _ _ _ _ _)) as (k & H).
    do 2 eexists. split; [exact H|]. eexists. split; [vm_compute; reflexivity|]. split; vm_compute; reflexivity.
Qed.

Print Assumptions C126_no_race.
Print Assumptions C126_writes.
Print Assumptions C126_reads.
Print Assumptions C126_footprint.
Print Assumptions C126_result.
